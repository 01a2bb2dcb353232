{"id": "C01", "title": "Mailbox delivers in FIFO order without loss or duplication", "statement": "For any mixture of concurrent blocking and non-blocking puts and gets on one UVMMailbox, the items handed to getters, in delivery order, followed by the items still stored, are exactly the items that were accepted, in acceptance order.", "quantifier": "every mailbox bound, every number of processes, every interleaving of their steps, every item", "why_tests_cant": "The number of interleavings of suspended putters and getters is unbounded; a test exercises one schedule.", "anchors": ["src/uvm/base/uvm_mailbox.py: UVMMailbox.put/get/try_put/try_get"]}
{"id": "C02", "title": "Bounded mailbox never exceeds its bound", "statement": "A UVMMailbox created with max_size n>0 never holds more than n items, at any point of any schedule, including when many suspended putters are woken by one get.", "quantifier": "every bound, every interleaving", "why_tests_cant": "needs all schedules in which several putters wake at once", "anchors": ["src/uvm/base/uvm_mailbox.py: UVMMailbox.put/try_put/can_put"]}
{"id": "C03", "title": "Mailbox has no lost wake-up", "statement": "Whenever a process is suspended in get() and not scheduled to run, the mailbox is empty; whenever one is suspended in put() and not scheduled, it is full. So no process sleeps next to an available item or slot. A call completes at once exactly if an item (get, peek, try_get, try_peek) or a place (put, try_put) is there; otherwise the blocking calls suspend and the others answer no and change nothing.", "quantifier": "every reachable state of every schedule", "why_tests_cant": "a lost wake-up shows only in a particular race; tests see a hang rarely or never", "anchors": ["src/uvm/base/uvm_mailbox.py: put/get and m_read_event/m_write_event"]}
{"id": "C04", "title": "What the mailbox and FIFO occupancy count says", "statement": "num() of a mailbox (and used() of a TLM FIFO) is 0 when nothing is stored and 1 otherwise, whatever the number of stored items; so it is the number of stored items exactly when at most one is stored, in particular in every execution with bound 1.", "quantifier": "every reachable mailbox state", "why_tests_cant": "the value is wrong only for particular sizes; a test with one item passes", "anchors": ["src/uvm/base/uvm_mailbox.py: UVMMailbox.num", "src/uvm/tlm1/uvm_tlm_fifos.py: UVMTLMFIFO.used/is_full/can_put"]}
{"id": "C05", "title": "Peek returns the head, or None, and leaves the mailbox unchanged", "statement": "A peek (blocking or not) that returns hands out the item at the head at that moment, or None if nothing is stored then, and changes no stored item. None is possible when another process takes the item between the wake-up and the read; it never happens when the peeking process is the only one that removes items.", "quantifier": "every schedule with concurrent getters", "why_tests_cant": "the failing schedule needs a getter to run between the wake-up and the resume of a peek", "anchors": ["src/uvm/base/uvm_mailbox.py: UVMMailbox.peek/try_peek"]}
{"id": "C06", "title": "TLM FIFO status functions: exact for size 0 and 1, blind for larger sizes", "statement": "For a TLM FIFO: is_empty() holds iff nothing is stored; can_peek() iff something is stored; can_get() holds iff something is stored and no process is inside a blocking get; it implies that a non-blocking get succeeds, but a get in progress hides items a non-blocking get would take. For size 0 (unbounded) and 1, is_full() holds iff the FIFO is bounded and holds size items and can_put() iff a non-blocking put would be accepted. For size >= 2, is_full() is always false and can_put() always true, whatever is stored.", "quantifier": "every FIFO size and every reachable fill level", "why_tests_cant": "defects appear only at particular sizes and fill levels", "anchors": ["src/uvm/tlm1/uvm_tlm_fifos.py: UVMTLMFIFO.is_empty/is_full/can_put/can_get"]}
{"id": "C07", "title": "What the TLM FIFO analysis ports see", "statement": "Every item accepted by put/try_put is written to put_ap once, in order. get_ap receives as many writes as items are removed; in executions without flush and in which try_get is given an empty list, it receives exactly the removed items in order. try_get(t) with a non-empty t writes the first element of t instead of the removed item, and flush() empties the FIFO and writes the first removed item once per removed item.", "quantifier": "every sequence of FIFO operations", "why_tests_cant": "needs all operation sequences, including flushes at every fill level", "anchors": ["src/uvm/tlm1/uvm_tlm_fifos.py: put/try_put/get/try_get/flush"]}
{"id": "C08", "title": "UVMQueue is a sequence", "statement": "Every history of push_back, push_front, pop_back, pop_front, insert, delete, get, set, subscript and size on a UVMQueue returns what the same history returns on an abstract finite sequence, with out-of-range indices and empty pops behaving as documented and leaving the contents unchanged. A slice subscript always raises and changes nothing.", "quantifier": "every history of operations, every index (negative, in range, beyond)", "why_tests_cant": "histories and indices are unbounded", "anchors": ["src/uvm/base/uvm_queue.py: UVMQueue"]}
{"id": "C09", "title": "Queue searches", "statement": "find_with/find_first_index return exactly the elements satisfying the predicate in order, and the least matching index or -1.", "quantifier": "every content and predicate", "why_tests_cant": "all contents, all predicates", "anchors": ["src/uvm/base/uvm_queue.py: find_with, find_first_index"]}
{"id": "C10", "title": "UVMPool is a finite map with stable order", "statement": "After any history of add/get/delete, exists(k), num() and the value for k are those of the abstract finite map, and the key order is order of first insertion since last deletion.", "quantifier": "every history of pool operations", "why_tests_cant": "histories are unbounded", "anchors": ["src/uvm/base/uvm_pool.py: UVMPool"]}
{"id": "C11", "title": "Pool iteration is complete", "statement": "Starting with first() and repeating next() while has_next() visits each key of the pool exactly once in order; last()/prev() visits them in reverse. next() never raises after any history; prev() never raises after a history without deletions (after a deletion it can). During these iterations has_next()/has_prev() say whether a key follows or precedes, and next()/prev() beyond the ends give None. In an empty pool first() and last() answer False and next() None.", "quantifier": "every pool content", "why_tests_cant": "contents of every size", "anchors": ["src/uvm/base/uvm_pool.py: first/next/has_next/last/prev/has_prev"]}
{"id": "C12", "title": "Packed integer fields unpack to the same values", "statement": "Packing any sequence of integer fields (1 <= size, 0 <= value < 2**size; size 0 also in little-endian mode), then unpacking fields of the same sizes in the same order yields the same values, and consumes exactly the packed bits, in big- and little-endian mode. In big-endian mode packing a field of size 0 raises.", "quantifier": "every sequence of (size, value) pairs, both endianness modes", "why_tests_cant": "round-trip over unbounded sequences and sizes", "anchors": ["src/uvm/base/uvm_packer.py: pack_field_int/unpack_field_int/flip_bit_order"]}
{"id": "C13", "title": "Packed layout is concatenation", "statement": "In little-endian mode the packed bit stream is the concatenation of the fields, first field in the least significant bits; in big-endian mode each field contributes its bits most significant first.", "quantifier": "every sequence of fields, every bit position", "why_tests_cant": "all bit positions of all streams", "anchors": ["src/uvm/base/uvm_packer.py: pack_field_int/get_bit"]}
{"id": "C14", "title": "Unpacking never reads past the end", "statement": "Unpacking a field when fewer bits remain than requested returns 0 and leaves the position unchanged, so the position never exceeds the packed size.", "quantifier": "every unpack history", "why_tests_cant": "needs all histories of sizes", "anchors": ["src/uvm/base/uvm_packer.py: unpack_field_int/enough_bits"]}
{"id": "C15", "title": "Which packed strings unpack to the same string", "statement": "In little-endian mode, pack_string of a non-empty string of byte characters (anywhere in the stream) followed by unpack_string with the same length, or up to the terminating null when what follows is shorter than a byte, yields the original string; the position afterwards is 8 bits too far whenever at least 8 more bits follow. In big-endian mode (the default) unpack_string returns the characters of the bit-reversed string. Packing the empty string raises in both modes.", "quantifier": "every string", "why_tests_cant": "defects depend on particular first/last characters", "anchors": ["src/uvm/base/uvm_packer.py: pack_string/unpack_string"]}
{"id": "C16", "title": "Packed byte and int arrays unpack to the same arrays at the start of the stream", "statement": "pack_bytes/pack_ints at the start of the stream followed by unpack_bytes/unpack_ints yields the original array and leaves the position at the next field, in both modes. unpack_bytes/unpack_ints return the same array whatever the current position, so an array placed after another field is not read back. A size argument does not limit what is packed: up to the size of the array the whole array is packed, beyond it nothing is. When unpacking, a size beyond the array gives an empty list; a size beyond the bits that remain leaves the array and the position alone; otherwise the whole array is read and the position moves on by the size.", "quantifier": "every array and every preceding field", "why_tests_cant": "depends on position in stream", "anchors": ["src/uvm/base/uvm_packer.py: pack_bytes/pack_ints/unpack_bytes/unpack_ints"]}
{"id": "C17", "title": "Bit stream export is exact, import loses high zero bits", "statement": "get_bytes/get_ints export exactly the packed bits, grouped in words. Putting the packed bits (one or more) back with put_bits into a packer, whatever it held before, restores the bit contents and sets the position to 0; it restores the packed size exactly when a single bit is packed or the last packed bit is 1, otherwise the size shrinks.", "quantifier": "every packed content", "why_tests_cant": "depends on leading zero bits", "anchors": ["src/uvm/base/uvm_packer.py: get_bits/get_bytes/get_ints/put_bits/put_bytes/put_ints"]}
{"id": "C18", "title": "Bit helpers obey get/set/clear laws and clog2 is the ceiling log", "statement": "get_bit after set_bit/clear_bit at the same position yields 1/0 and other positions are unchanged; clog2(n) is the least k with 2**k >= n; a vector of ones of width w equals 2**w-1.", "quantifier": "every value, position, width", "why_tests_cant": "unbounded integers", "anchors": ["src/uvm/base/sv.py: sv.set_bit/get_bit/clear_bit/clog2/get_vector_of_ones"]}
{"id": "C19", "title": "Semaphore key accounting and when it excludes", "statement": "For every schedule of get/try_get/put on a semaphore (any number of keys per request, any number of processes) in which puts return keys that are out, keys held plus keys available equals keys initially available. When all requests are single-key get and put, the available count is moreover never negative, so no key is granted to two processes, and with one key no process keeps waiting while the key is free. Both restrictions are needed: with try_get, or with requests for several keys, more keys than exist can be handed out, and with two keys a process can wait although a key is free. With puts of one key there are never more keys than initially (a put while none is out is ignored), and a request for more keys than that fails or raises; a put of several keys can create keys.", "quantifier": "every schedule, every number of processes", "why_tests_cant": "all interleavings", "anchors": ["src/uvm/base/sv.py: semaphore"]}
{"id": "C20", "title": "Name globs match the names containing a fitting part", "statement": "A glob with * and ? (as used for config_db and factory instance paths) matches a name iff some contiguous part of the name fits the pattern; in particular every name that fits is matched, and a pattern that starts and ends with * matches exactly the names that fit it.", "quantifier": "every name and every pattern not delimited by slashes and without + ( ) { } ^ $ | \\", "why_tests_cant": "all strings", "anchors": ["src/uvm/base/sv.py: sv.uvm_re_match/sv.uvm_glob_to_re", "src/uvm/base/uvm_globals.py: uvm_is_match"]}
{"id": "C21", "title": "Field values always fit the field", "statement": "After configure and any history of set, reset, set_reset and predictions, the desired and mirrored values of a register field lie in [0, 2**size).", "quantifier": "every size, every history, every value written", "why_tests_cant": "histories unbounded, values unbounded", "anchors": ["src/uvm/reg/uvm_reg_field.py: set/reset/set_reset/predict/do_predict"]}
{"id": "C22", "title": "Write prediction implements the access policy", "statement": "For every predefined access policy, predicting a bus write of w on a field with mirrored value c gives, bit by bit, exactly the effect that the policy's documentation prescribes.", "quantifier": "every policy, every size, every current and written value", "why_tests_cant": "values are unbounded; bitwise for all bits", "anchors": ["src/uvm/reg/uvm_reg_field.py: XpredictX/do_predict"]}
{"id": "C23", "title": "Read prediction implements the access policy", "statement": "Predicting a bus read that observed v sets the mirror to v, except that clear-on-read/set-on-read policies set it to zero/all ones, and unreadable policies leave it unchanged.", "quantifier": "every policy, size, value", "why_tests_cant": "all values", "anchors": ["src/uvm/reg/uvm_reg_field.py: do_predict"]}
{"id": "C24", "title": "set() then update() brings the mirror to the desired value", "statement": "For policies where the desired value is reachable, the value that update() writes for a field, when predicted as a write, makes the mirrored value equal to the desired value set by set(); needs_update() is then false for non-volatile fields.", "quantifier": "every policy, size, mirrored value and set value", "why_tests_cant": "all values", "anchors": ["src/uvm/reg/uvm_reg_field.py: set/XupdateX/XpredictX/needs_update"]}
{"id": "C25", "title": "Write-once fields change at most once between hard resets", "statement": "For W1 and WO1 fields, after the first predicted write, no later write or set() changes the value until a HARD reset.", "quantifier": "every history of writes, sets and soft resets", "why_tests_cant": "histories unbounded", "anchors": ["src/uvm/reg/uvm_reg_field.py: set/XpredictX/reset"]}
{"id": "C26", "title": "Map rights restrict field access", "statement": "Through a map with read-only rights, no predicted write changes a field's mirror and reads have the side effect of the field's policy. Through a map with write-only rights every field is inaccessible: neither predicted writes nor predicted reads change the mirror. A predicted write uses up the single write of a write-once field whatever the map's rights.", "quantifier": "every built-in policy, rights, value and byte enable", "why_tests_cant": "all combinations and values", "anchors": ["src/uvm/reg/uvm_reg_field.py: get_access"]}
{"id": "C27", "title": "Register fields stay sorted and disjoint", "statement": "After any sequence of add_field, the fields of a register are the added ones, in increasing bit position; overlapping fields are always reported, and if no error is reported they are pairwise disjoint and their total size does not exceed the register. A field beyond the end of the register is accepted without an error as long as the total size fits.", "quantifier": "every order and number of fields of positive size", "why_tests_cant": "all insertion orders", "anchors": ["src/uvm/reg/uvm_reg.py: add_field"]}
{"id": "C28", "title": "Register value is the composition of its fields", "statement": "get() places each field's desired value at its bit offset; set(v) distributes v over the fields; hence for read-write fields get() after set(v) returns v restricted to field bits.", "quantifier": "every field layout and value", "why_tests_cant": "all layouts", "anchors": ["src/uvm/reg/uvm_reg.py: set/get/get_mirrored_value"]}
{"id": "C29", "title": "Register prediction equals field-wise prediction", "statement": "With all bytes enabled, predicting a register write/read of v updates each field as if predicted with its slice of v, and leaves register bits outside fields zero. With a byte enable, the prediction raises exactly when the byte holding the lowest bit of some field is disabled, and otherwise is the same as with all bytes enabled. predict() while an access of the register is in progress is refused: it returns False and changes nothing.", "quantifier": "every layout, policy mix, value, byte enable", "why_tests_cant": "all layouts and values", "anchors": ["src/uvm/reg/uvm_reg.py: do_predict/predict"]}
{"id": "C30", "title": "Multi-word register access is lossless", "statement": "In a hierarchy of maps addressed uniformly (all in words, or all in bytes with no map inside a wider one) in which at most the two outermost maps split an access, writing an n-byte value through the bus and reading it back from the same addresses, in any order, returns the value and touches no other address; the bus accesses transfer disjoint slices covering all bits.", "quantifier": "every depth, bus width, endianness, register size, value, prior memory contents", "why_tests_cant": "all sizes and widths", "anchors": ["src/uvm/reg/uvm_reg_map.py: do_bus_write/do_bus_read"]}
{"id": "C31", "title": "Physical addresses of registers are exact, distinct and disjoint", "statement": "In a map hierarchy the physical addresses computed for one register are exactly the lifted addresses of its words, and the set does not depend on endianness. In a flat map they are distinct and as many as needed. In a uniformly addressed hierarchy registers with disjoint offset ranges in the same map get disjoint addresses, and where at most the two outermost maps split accesses they are distinct and cover the register. With a FIFO endianness all words of a register in a flat map have the same address.", "quantifier": "every base address, offset, size, hierarchy depth, endianness", "why_tests_cant": "all hierarchies", "anchors": ["src/uvm/reg/uvm_reg_map.py: get_physical_addresses"]}
{"id": "C32", "title": "Address lookup finds the mapped register", "statement": "After address map initialisation, looking up any physical address of a mapped register for the corresponding direction returns that register when no two registers collide.", "quantifier": "every set of registers and offsets", "why_tests_cant": "all register sets", "anchors": ["src/uvm/reg/uvm_reg_map.py: Xinit_address_mapX/get_reg_by_offset/add_reg"]}
{"id": "C33", "title": "Register accesses of disciplined processes are atomic", "statement": "When processes only leave operations they are in and the register is not reset during an operation, then between the start and end of one register operation no other process enters an operation on the same register, and whenever nobody is inside, no process is left waiting: a woken one enters at its next step. A write refused by a hook releases twice without letting a second process in. A process that never leaves its operation, as after an exception, keeps all others out for ever. A reset during an operation, or leaving an operation one is no longer in, lets a second process in.", "quantifier": "every schedule of processes", "why_tests_cant": "all interleavings", "anchors": ["src/uvm/reg/uvm_reg.py: XatomicX"]}
{"id": "C34", "title": "Override resolution terminates", "statement": "When registered type names are unique, finding the override of any type or name ends for every history of override registrations (including cyclic ones): with a type, with no type only if the name is unknown, or - only before the first loop has been reported - with IndexError. Once a loop has been reported, a request by type always yields a type.", "quantifier": "every history of registrations and overrides with unique type names", "why_tests_cant": "cycles of arbitrary length", "anchors": ["src/uvm/base/uvm_factory.py: find_override_by_type"]}
{"id": "C35", "title": "Instance overrides take precedence over type overrides", "statement": "When overrides are registered by type and type names are unique: if some instance override for the requested type matches the instance path, the first one registered that matches is followed; type overrides apply only when no instance override matches, the latest one with replace set winning. Requests by name give the same result as requests by type.", "quantifier": "every history of by-type registrations and overrides, every path", "why_tests_cant": "all lists", "anchors": ["src/uvm/base/uvm_factory.py: find_override_by_type"]}
{"id": "C36", "title": "Chained overrides resolve to the end of the chain", "statement": "When overrides are registered by type, type names are unique and the applicable overrides form no cycle, the created type is the end of the chain of applicable overrides starting from the requested type.", "quantifier": "every history of by-type registrations and overrides, every chain length", "why_tests_cant": "all histories", "anchors": ["src/uvm/base/uvm_factory.py: set_type_override_by_type/find_override_by_type"]}
{"id": "C37", "title": "Resource lookup returns the highest precedence match", "statement": "get_by_name returns, among the resources with the name whose scope matches, one of greatest precedence, the earliest in queue order among equals, and none iff none matches.", "quantifier": "every pool content", "why_tests_cant": "all pools", "anchors": ["src/uvm/base/uvm_resource.py: lookup_name/get_highest_precedence/get_by_name"]}
{"id": "C38", "title": "Which value config_db returns", "statement": "get returns the value of the last set of some key (scope, field) visible to the reader, and no visible key was last set with a higher precedence. Among keys of equal precedence it is the most recent set if no key is set twice, if the most recent visible set used a new key, or if only one key is visible. In general the result is the first of highest precedence in a search order in which setting a key again moves it behind the others.", "quantifier": "every history of sets, every reader path", "why_tests_cant": "the failing histories need a re-set of an older key", "anchors": ["src/uvm/base/uvm_config_db.py: UVMConfigDb.set/get"]}
{"id": "C39", "title": "Read-only resources never change", "statement": "Once set_read_only() is called the value returned by read never changes until made writable. set_read_only() and set_read_write() change nothing else: not the name, scope, precedence or value of any resource, nor what a lookup finds.", "quantifier": "every history of writes", "why_tests_cant": "histories unbounded", "anchors": ["src/uvm/base/uvm_resource.py: UVMResource.write/set_read_only"]}
{"id": "C40", "title": "Objection totals equal the outstanding objections below", "statement": "In every history in which no objection is raised at or beneath an object that is being drained: with no drain in progress, at every object the total count equals the raises minus the accepted drops performed by it and everything beneath it, and is not negative; while drains are in progress it is at least that. Each raise adds to and each accepted drop takes from what its object holds, and nothing else does.", "quantifier": "every tree, every history of raise and drop interleaved with the background drainer, subject to the stated condition", "why_tests_cant": "all trees and histories", "anchors": ["src/uvm/base/uvm_objection.py: raise_objection/drop_objection/m_raise/m_drop/m_propagate"]}
{"id": "C41", "title": "A drop below zero is rejected without effect", "statement": "Dropping more objections than an object holds is reported as an error and changes no count, in every state; no count is ever negative in any history of non-negative raises and drops. When no objection is raised at or beneath a draining object, a drop of no more than the object holds is never refused, at the object or above it.", "quantifier": "every state", "why_tests_cant": "all states", "anchors": ["src/uvm/base/uvm_objection.py: m_drop"]}
{"id": "C42", "title": "Drains complete when the background process is not overtaken", "statement": "From every state the background drain work stops after a bounded number of steps. If no objection is raised at or beneath a draining object and the background process runs before further drops and raises once it has work, then when it stops no drain is left, and if every object has dropped what it raised, every count is zero and the top has been notified.", "quantifier": "every tree and every schedule, subject to the stated conditions", "why_tests_cant": "the failing schedule needs two drops before the background process runs", "anchors": ["src/uvm/base/uvm_objection.py: m_execute_scheduled_forks/m_forked_drain"]}
{"id": "C43", "title": "A zero total means no objection, unless one is raised during a drain", "statement": "When no objection is raised at or beneath an object that is being drained, a total of zero at an object, and its all-dropped notification, imply that nothing beneath holds an objection. Without this condition a raise during a drain does not stop the drain: the top total reaches zero and the top is notified although the objection is still held.", "quantifier": "every schedule", "why_tests_cant": "race between drain timer and raise", "anchors": ["src/uvm/base/uvm_objection.py: m_raise/m_forked_drain"]}
{"id": "C44", "title": "Report counts are exact", "statement": "Over any history of issued messages, the severity counts and the id counts each sum to the number of messages executed, and per severity/id count exactly those executed with that (final) severity/id.", "quantifier": "every message history", "why_tests_cant": "histories unbounded", "anchors": ["src/uvm/base/uvm_report_server.py: execute_report_message/incr_severity_count/incr_id_count"]}
{"id": "C45", "title": "Simulation stops exactly at the quit count", "statement": "For messages without the record action: with max_quit_count n>0 the run terminates at a message exactly when it has the exit action or is counted and is the n-th counted one or later; so starting from 0 never before the n-th counted message and at it; with 0 only at exit actions. The maximum is the last one set, up to a setting that forbids overriding.", "quantifier": "every history of messages, every n and starting count", "why_tests_cant": "all histories", "anchors": ["src/uvm/base/uvm_report_server.py: execute_report_message/is_quit_count_reached/set_max_quit_count"]}
{"id": "C46", "title": "Verbosity filter, and whose settings it uses", "statement": "A message issued with a reporting method, or with a _context macro, is shown iff its verbosity is at most the verbosity in force for the component, the (severity,id) setting taking precedence over the id setting over the default. The plain macros use the verbosity in force at the root component instead, so they agree with the calling component exactly when both levels give the same answer.", "quantifier": "every configuration history and message", "why_tests_cant": "all configurations", "anchors": ["src/uvm/base/uvm_report_handler.py: get_verbosity_level", "src/uvm/base/uvm_report_object.py: uvm_report_enabled"]}
{"id": "C47", "title": "Action and file precedence", "statement": "The action of a message is the (severity,id) setting if set, else the id setting, else the severity setting, else the default; the file is found in the same way except that a setting of 0 is passed over. Setting one entry affects no other.", "quantifier": "every configuration history", "why_tests_cant": "all configurations", "anchors": ["src/uvm/base/uvm_report_handler.py: get_action/get_file_handle and setters"]}
{"id": "C48", "title": "Which severity a message is issued with", "statement": "A message whose (severity,id) has an override is issued with that severity; else, if its id has no override for any severity, with the severity override if there is one; else unchanged: an id with an override for another severity loses the plain severity override. Overrides do not chain.", "quantifier": "every override history, every message", "why_tests_cant": "all configurations", "anchors": ["src/uvm/base/uvm_report_handler.py: process_report_message/set_severity_override/set_severity_id_override"]}
{"id": "C49", "title": "Report catchers run in order until one catches", "statement": "Unless an exception is raised, enabled catchers see the message in registration order, each seeing modifications of the previous ones, up to the first that catches it; the message is issued iff none caught it and its action is not empty, with the action it has then. Here a catcher that changes the severity and leaves the action at the old severity's default gets the new severity's default. With quiet catchers only, an exception comes only from issuing the message itself.", "quantifier": "every list of catchers, outside another catcher's run", "why_tests_cant": "all lists of catchers", "anchors": ["src/uvm/base/uvm_report_catcher.py: process_all_report_catchers"]}
{"id": "C50", "title": "FIFO arbitration grants in request order", "statement": "With FIFO arbitration and no locks, requests of relevant sequences are granted in the order in which they were made, every request is granted at most once, and none is lost.", "quantifier": "every history of requests and grants", "why_tests_cant": "histories unbounded", "anchors": ["src/uvm/seq/uvm_sequencer_base.py: wait_for_grant/m_choose_next_request/m_select_sequence"]}
{"id": "C51", "title": "No grant to blocked sequences; lock requests are never served", "statement": "The chosen sequence is never blocked by a lock holder that is neither itself nor one of its ancestors. No lock is ever granted: from the moment a lock request is at the front of the queue, and until a request is removed, nothing is chosen and asking for the next item raises.", "quantifier": "every queue content and lock list", "why_tests_cant": "all queue contents", "anchors": ["src/uvm/seq/uvm_sequencer_base.py: is_blocked/grant_queued_locks"]}
{"id": "C52", "title": "Responses are delivered to the requesting sequence in order", "statement": "Responses put by the driver reach the sequence whose id they carry, in order, up to the response queue depth; get_response with a transaction id returns the first with that id and keeps the others, and returns at once when a matching response is already queued. A process that started waiting earlier can miss a matching response, when the queue returns to the length it saw before.", "quantifier": "every history of responses", "why_tests_cant": "histories unbounded", "anchors": ["src/uvm/seq/uvm_sequencer_param_base.py: put_response", "src/uvm/seq/uvm_sequence_base.py: put_base_response/get_base_response"]}
{"id": "C53", "title": "Event trigger wakes waiters and remembers state; a plain reset strands them", "statement": "Without callbacks, between a trigger and the next reset is_on() is true and wait_on returns; after a reset wait_off returns; every process that started waiting for the trigger after the last reset is woken by the next trigger or by a reset with wakeup. A reset without wakeup makes every process then waiting for the trigger wait for ever. A wait_on called while the event is off does not return before a trigger.", "quantifier": "every schedule of triggers, resets, waits", "why_tests_cant": "all interleavings", "anchors": ["src/uvm/base/uvm_event.py: UVMEvent"]}
{"id": "C54", "title": "Event callbacks always veto the trigger", "statement": "Without callbacks trigger() always takes effect. With any callback registered trigger() never takes effect, whatever the callbacks return, and only the last registered one is asked.", "quantifier": "every list of callbacks", "why_tests_cant": "all callback lists", "anchors": ["src/uvm/base/uvm_event.py: trigger"]}
{"id": "C55", "title": "Data access policies", "statement": "get-to-lock: after the first get the value never changes; simple-lock: the value does not change while locked; set-before-get: a get before any set is reported, and later returns the last set value.", "quantifier": "every history of set/get/lock/unlock", "why_tests_cant": "histories unbounded", "anchors": ["src/uvm/dap/*.py"]}
{"id": "C56", "title": "Spell checker distance is the edit distance", "statement": "The distance used to suggest names is the minimal number of single-character insertions, deletions and substitutions between two non-empty strings.", "quantifier": "every pair of strings", "why_tests_cant": "all strings; minimality over all edit scripts", "anchors": ["src/uvm/base/uvm_spell_chkr.py: levenshtein_distance/check"]}
{"id": "C57", "title": "Callback iteration visits each enabled callback once in order", "statement": "For any history of adds (append or prepend): iterating first/next over an object for a type visits exactly the enabled callbacks of the requested type, in queue order, each once, last/prev in reverse. The queue is that of the object if anything was ever added to it, else the type-wide one; so type-wide callbacks are not visited for an object that has callbacks of its own. Iterating without a type visits disabled ones too. Adding the same callback twice warns and has no effect. Adding None is reported as an error and registers nothing.", "quantifier": "every history of adds and enables", "why_tests_cant": "histories unbounded", "anchors": ["src/uvm/base/uvm_callback.py: UVMCallbacks.add/get_first/get_next/get_last/get_prev"]}
{"id": "C58", "title": "A phase starts only after all its predecessors are done", "statement": "For every phase graph and every interleaving of the phase processes: a phase enters STARTED only when every predecessor is already DONE, its states follow one fixed order (SYNCING, STARTED, EXECUTING, then for real phases the phase bodies, READY_TO_END for task phases, ENDED, CLEANUP, then DONE), and no node is executed twice.", "quantifier": "every phase graph (also cyclic ones), every interleaving of the phase processes", "why_tests_cant": "all graphs and interleavings", "anchors": ["src/uvm/base/uvm_phase.py:1224-1509", "src/uvm/base/uvm_phase.py:299-309"]}
{"id": "C59", "title": "Phasing completes", "statement": "On the standard phase graph (common phases with the uvm run-time phases parallel to run), and on every acyclic phase graph in which a phase has no sibling phase except that two task phases may be each other's only sibling, phasing cannot get stuck before every node is DONE and ends after a bounded number of steps, whatever the interleaving, provided each phase body ends. These conditions matter: two parallel function phases with a common successor never end, a last phase not called 'final' raises KeyError, and three parallel task phases (e.g. run, the uvm domain and one more domain) can deadlock on lost wake-ups.", "quantifier": "every such graph, every interleaving of the phase processes", "why_tests_cant": "all graphs, all interleavings; deadlocks only appear in some schedules", "anchors": ["src/uvm/base/uvm_phase.py:1224-1509", "src/uvm/base/uvm_phase.py:896-926", "src/uvm/base/uvm_phase.py:1119-1189", "src/uvm/base/uvm_domain.py:93-190"]}
{"id": "C60", "title": "Phase insertion preserves order", "statement": "In every graph in which no two phases share a dictionary, add(before)/add(after)/add(with) puts the new phase or schedule at the requested place, raises no error and leaves the order of all existing phases as it was; every sequence of adds at the end, before or after existing phases of a schedule builds exactly the list obtained by list insertion, and on such schedules is_before/is_after answer exactly by list position; on every graph a positive answer is right. Limits: after add(with) the parallel phases share their dictionaries, so a later add after a common predecessor or before a common successor (also the default add at the end of the schedule) raises KeyError; adding between two adjacent phases always raises; with parallel phases is_before/is_after follow only the first neighbour and may deny a true order.", "quantifier": "every graph of phases, every sequence of insertions, every query", "why_tests_cant": "all graphs", "anchors": ["src/uvm/base/uvm_phase.py: add/is_before/is_after/m_find_successor"]}
{"id": "C61", "title": "Field comparison looks at all bits", "statement": "compare_field(lhs, rhs, size) with size up to 64 succeeds iff lhs and rhs are equal in all bits, whatever the size; for values that fit in size bits this is the same as agreeing in the low size bits. For sizes over 64 it returns nothing.", "quantifier": "every pair of values and size", "why_tests_cant": "all values", "anchors": ["src/uvm/base/uvm_comparer.py: compare_field/compare_field_int"]}
{"id": "C62", "title": "In-order comparator matches the i-th before with the i-th after", "statement": "For any interleaving of writes to the two exports, the comparator compares the i-th before item with the i-th after item, publishes each pair once, and counts as mismatches exactly the pairs for which the policy returns the value False, as matches all others. So the library's policies, returning booleans, are counted exactly; a policy that returns anything else for unequal items (0, None) never gives a mismatch.", "quantifier": "every interleaving and stream", "why_tests_cant": "all interleavings", "anchors": ["src/uvm/comps/uvm_in_order_comparator.py: run_phase"]}
{"id": "C63", "title": "Analysis port broadcast", "statement": "After binding resolution, a write to an analysis port reaches each implementation connected to it through any path of ports and exports exactly once, in an order that depends only on the connections; connections made after resolution have no effect and are not reported.", "quantifier": "every acyclic connection graph over ports with distinct full names, every sequence of connect calls (legal or not), every order of resolution", "why_tests_cant": "all graphs", "anchors": ["src/uvm/base/uvm_port_base.py:328-421,620-690", "src/uvm/tlm1/uvm_analysis_port.py:63-76,135-150"]}
{"id": "C64", "title": "Scope stack is a stack for plain names", "statement": "down followed by balanced calls and up restores the scope string for every nesting of names that do not start with a bracket; names are joined with dots, elements attached with brackets, and an argument is appended; unset_arg of that argument removes it and of another one does nothing; set leaves just the given name. up() after a bracketed name also removes the enclosing scope, and after set_arg_element, get() raises.", "quantifier": "every nesting", "why_tests_cant": "all nestings", "anchors": ["src/uvm/base/uvm_scope_stack.py"]}
{"id": "C65", "title": "Phase traversal order", "statement": "A top-down phase calls each component of the tree (those of the phase's domain) exactly once, parents before children, including the components created during the phase; bottom-up and task phases call children before parents, each exactly once.", "quantifier": "every component tree, every set of components created by the callbacks, every callback that leaves the child iterators of components above it alone (for task phases: every callback)", "why_tests_cant": "all trees", "anchors": ["src/uvm/base/uvm_topdown_phase.py:56-109", "src/uvm/base/uvm_bottomup_phase.py:54-100", "src/uvm/base/uvm_task_phase.py:98-172", "src/uvm/base/uvm_component.py:315-375,2160-2166"]}
{"id": "C66", "title": "Register FIFO model", "statement": "A FIFO register's model keeps at most its capacity of values, predicted writes append, predicted reads remove the oldest, and get returns the oldest.", "quantifier": "every history", "why_tests_cant": "histories unbounded", "anchors": ["src/uvm/reg/uvm_reg_fifo.py"]}
{"id": "C67", "title": "String to bits is right up to two characters", "statement": "uvm_string_to_bits(s) is the concatenation of the 8-bit character codes of s if s has at most two characters; for every longer string whose first two characters are not both NUL it is too large.", "quantifier": "every string", "why_tests_cant": "fails only from three characters on", "anchors": ["src/uvm/base/uvm_globals.py: uvm_string_to_bits"]}
{"id": "C68", "title": "TLM request/response channel keeps streams separate", "statement": "Through a request/response channel each side receives exactly the other's items in order, requests and responses never mixing.", "quantifier": "every interleaving of masters and slaves", "why_tests_cant": "all interleavings", "anchors": ["src/uvm/tlm1/uvm_tlm_req_rsp.py"]}
{"id": "C69", "title": "Queue copies share their contents", "statement": "Queues that were never copied never influence each other. After copying one UVMQueue into another the two have equal contents, and stay equal whatever is called on either or on others, until one of the two is emptied with delete() or copied into.", "quantifier": "every interleaving of calls on any number of queues", "why_tests_cant": "aliasing shows only for particular interleavings", "anchors": ["src/uvm/base/uvm_queue.py: do_copy, delete"]}
{"id": "C70", "title": "Printing a pool continues the iteration", "statement": "do_print of a pool prints, in order and once each, exactly the keys after the current iteration position and leaves the position at the last key: a pool whose iteration has not started is printed entirely, and a second print prints nothing.", "quantifier": "every pool content and pointer position", "why_tests_cant": "contents and pointer histories are unbounded", "anchors": ["src/uvm/base/uvm_pool.py: do_print, next, has_next"]}
{"id": "C71", "title": "Object string pools create on demand; delete of an existing key never returns", "statement": "get(key) of an object string pool returns the object of that key, creating it at most once and leaving other keys alone. delete(key) of an absent key changes nothing; delete(key) of an existing key never returns, whatever the recursion limit.", "quantifier": "every pool content and key", "why_tests_cant": "all contents", "anchors": ["src/uvm/base/uvm_pool.py: UVMObjectStringPool.get, delete"]}
{"id": "C72", "title": "Bit-slice helper returns one bit more than requested", "statement": "The packer module's get_bits(bits, start, n) helper returns the n+1 bits starting at start; so it returns exactly the n bits asked for iff bit start+n is 0.", "quantifier": "every integer, non-negative start and width", "why_tests_cant": "off-by-one shows only when the next bit is set", "anchors": ["src/uvm/base/uvm_packer.py: get_bits"]}
{"id": "C73", "title": "What packing a value wider than its field does", "statement": "In big-endian mode pack_field_int rejects a non-negative value that does not fit the given size (it raises), and never returns for a negative value. In little-endian mode it always returns and writes the whole value over the stream from the current position on, so the bits beyond the size end up in the following fields.", "quantifier": "every value, size, surrounding fields, both modes", "why_tests_cant": "damage shows in a neighbouring field for particular values", "anchors": ["src/uvm/base/uvm_packer.py: pack_field_int/flip_bit_order"]}
{"id": "C74", "title": "Register write sends and predicts the written value", "statement": "reg.write(v) through the front door sends v truncated to the register size on the bus and, with automatic prediction, updates each field's mirror by its policy applied to its own slice of v.", "quantifier": "every register layout, policy mix, value", "why_tests_cant": "all layouts and values", "anchors": ["src/uvm/reg/uvm_reg.py: write/do_write/do_predict"]}
{"id": "C75", "title": "mirror() check compares everything but excluded fields", "statement": "Checking a read-back value against the mirror passes iff they agree on every bit not covered by a field excluded from comparison; in particular write-only fields and bits outside fields are compared.", "quantifier": "every layout, policy mix, expected and actual value", "why_tests_cant": "depends on policy and bit pattern", "anchors": ["src/uvm/reg/uvm_reg.py: do_check/mirror"]}
{"id": "C76", "title": "Register reset restores the configured reset values", "statement": "After set_reset(v, kind), reset(kind) gives every field its slice of v as mirrored and desired value; a HARD reset re-arms write-once fields; a kind without reset value changes nothing.", "quantifier": "every layout, kind, value, prior state", "why_tests_cant": "all values and layouts", "anchors": ["src/uvm/reg/uvm_reg.py: reset/set_reset", "src/uvm/reg/uvm_reg_field.py: reset/set_reset/get_reset"]}
{"id": "C77", "title": "Register access summary", "statement": "The access summary of a register through a map is read-only iff it has fields and all are readable only, write-only iff it has fields and all are write-only, otherwise read-write.", "quantifier": "every set of fields, policies, map rights", "why_tests_cant": "all combinations", "anchors": ["src/uvm/reg/uvm_reg.py: Xget_fields_accessX"]}
{"id": "C78", "title": "A failing bus access stops the element; a burst reports its last element", "statement": "When a bus access of a register write or read of one value is answered with NOT_OK, the remaining accesses are not performed and the operation's status is NOT_OK; otherwise all are performed and the status is OK. For a burst write the status is OK iff all accesses of the last element were acknowledged, whatever happened to the earlier ones.", "quantifier": "every set of failing addresses, access order, values", "why_tests_cant": "all failure patterns", "anchors": ["src/uvm/reg/uvm_reg_map.py: do_bus_write/do_bus_read"]}
{"id": "C79", "title": "Moving a register updates lookups, except for registers added by default", "statement": "After set_offset on a locked model of a register added with unmapped=False, looking up the old addresses no longer finds the register (or finds the register sharing the address), the new ones do, and other addresses are unaffected. For a register added with the default (an integer), lookups outside the new addresses do not change, so the old addresses still find it.", "quantifier": "every map, old and new offset", "why_tests_cant": "all maps and offsets", "anchors": ["src/uvm/reg/uvm_reg_map.py: m_set_reg_offset", "src/uvm/reg/uvm_reg.py: set_offset"]}
{"id": "C80", "title": "Memory element addresses and bursts", "statement": "For a memory of two or more elements, the addresses used for element k (by stride arithmetic) are those computed for that element from the map hierarchy, a burst accesses consecutive elements, and (in uniformly addressed hierarchies splitting at most at the two outermost maps) a burst read after a burst write returns the values. Initialising the map of a one-element memory divides by zero.", "quantifier": "every hierarchy, memory size, element size, start, values", "why_tests_cant": "all hierarchies and bursts", "anchors": ["src/uvm/reg/uvm_reg_map.py: Xinit_address_mapX/do_bus_write/do_bus_read"]}
{"id": "C81", "title": "set() applies the access policy to the desired value", "statement": "UVMRegField.set(v) changes the desired value as a write of v would change the field under its access policy, for every policy but NOACCESS, for which it becomes v cut to the field's size; the mirrored value is left alone.", "quantifier": "every policy, size, desired value, v", "why_tests_cant": "all policies and values", "anchors": ["src/uvm/reg/uvm_reg_field.py: set"]}
{"id": "C82", "title": "Drain times can be set for the top only", "statement": "set_drain_time for a given object has no effect on any object's drain time; without an object it sets the top's drain time and no other.", "quantifier": "every object, time and previous settings", "why_tests_cant": "the default (top) works, so a test of the usual call passes", "anchors": ["src/uvm/base/uvm_objection.py: set_drain_time/m_forked_drain"]}
{"id": "C83", "title": "How often a reported message is shown and logged", "statement": "Executing a message without the record action shows its text once if its action includes DISPLAY, once more if it includes LOG and no file is set, and writes it to its file exactly once if the action includes LOG and a file other than stdout is set. Executing a message with the record action, or while everything is recorded, raises before showing or logging.", "quantifier": "every message and server state", "why_tests_cant": "Depends on every combination of action bits, file handle and server setting.", "anchors": ["src/uvm/base/uvm_report_server.py:404-486"]}
{"id": "C84", "title": "Resetting a report handler restores the general defaults only", "statement": "reset_report_handler restores the default verbosity, severity actions and files, and touches nothing else: settings by id and by (severity,id) and all overrides survive. So for a (severity,id) without such settings everything is as in a fresh report object.", "quantifier": "every configuration history", "why_tests_cant": "The stale setting may have been made by any earlier call.", "anchors": ["src/uvm/base/uvm_report_handler.py:358-374"]}
{"id": "C85", "title": "Caught and demoted counters are exact", "statement": "Each message of severity WARNING or above that a catcher catches increments the caught count of the severity it came with, and each one that leaves the catchers with a lower severity increments the demoted count, by one; no other message does.", "quantifier": "every catcher list, every message", "why_tests_cant": "Depends on arbitrary user catchers in any order.", "anchors": ["src/uvm/base/uvm_report_catcher.py:518-595"]}
{"id": "C86", "title": "A failing catcher disables all catchers for good", "statement": "A report call that raises no exception leaves the catchers in working order. After a report call in which an enabled catcher (behind ones that pass the message on) raised, no later message is offered to any catcher.", "quantifier": "every history", "why_tests_cant": "Needs an exception in one message and effects on arbitrary later ones.", "anchors": ["src/uvm/base/uvm_report_catcher.py:518-595"]}
{"id": "C87", "title": "Driver handshake: one item at a time, in order", "statement": "In histories without a fatal report in which try_next_item is not called between peek and item_done: through get_next_item/peek/get/try_next_item and item_done the driver receives, one at a time and in order, exactly the items the granted sequences send; each grant is used for one item before the next request is chosen.", "quantifier": "every history of driver and sequence calls subject to the stated condition", "why_tests_cant": "all interleavings of several sequences and a driver", "anchors": ["src/uvm/seq/uvm_sequencer.py: get_next_item/try_next_item/item_done/get/peek", "src/uvm/seq/uvm_sequencer_param_base.py: send_request"]}
{"id": "C88", "title": "Arbitration modes: random works, weighted, strict and user modes fail", "statement": "In random mode a driver asking for an item while relevant requests are pending gets one of them, and any of them for some draw. In the weighted, strict and user modes, asking while two relevant requests are pending is a fatal error.", "quantifier": "every history without lock requests, every random draw", "why_tests_cant": "all queues and draws", "anchors": ["src/uvm/seq/uvm_sequencer_base.py: m_choose_next_request/set_arbitration"]}
{"id": "C89", "title": "finish_item never returns early, and returns when woken in time", "statement": "finish_item returns only after the driver has completed an item of that sequence that was under way since the call. It does return if, after the completion, a request is made by some sequence and the waiting process runs next. Neither condition can be dropped: the completion itself does not wake the process, and a second completion before it runs hides the first.", "quantifier": "every interleaving of sequences and driver", "why_tests_cant": "a wake-up is lost only in some interleavings", "anchors": ["src/uvm/seq/uvm_sequencer_base.py: wait_for_item_done", "src/uvm/seq/uvm_sequencer.py: item_done"]}
{"id": "C90", "title": "wait_trigger waits for a later trigger unless a stale one is stored", "statement": "When nothing was triggered since the start, the last reset, or the last return of a process from wait_trigger, a process calling wait_trigger resumes only after a later trigger. Otherwise a trigger that nobody waited for makes a later wait_trigger return at once.", "quantifier": "every schedule of triggers, waits and resets", "why_tests_cant": "depends on the interleaving", "anchors": ["src/uvm/base/uvm_event.py: wait_trigger"]}
{"id": "C91", "title": "wait_ptrigger sees a trigger of the same time slot until a waiter resumes", "statement": "Without callbacks and resets, a wait_ptrigger called after a trigger in the same time slot returns immediately if no woken waiter has resumed since the trigger. Once one has, it does not return until the next trigger.", "quantifier": "every schedule", "why_tests_cant": "depends on the interleaving", "anchors": ["src/uvm/base/uvm_event.py: wait_ptrigger"]}
{"id": "C92", "title": "Event callback list", "statement": "add_callback of a new callback appends it, or puts it first with append=False on a non-empty list; with append=False on an empty list nothing is registered. No callback is ever registered twice; delete_callback removes it.", "quantifier": "every sequence of adds and deletes", "why_tests_cant": "sequences unbounded", "anchors": ["src/uvm/base/uvm_event.py: add_callback, delete_callback"]}
{"id": "C93", "title": "Spell checker answers, but never suggests", "statement": "check(table, s) is true iff s is a key; otherwise it reports that there are no alternatives, whatever the table.", "quantifier": "every table and string", "why_tests_cant": "all tables", "anchors": ["src/uvm/base/uvm_spell_chkr.py: check"]}
{"id": "C94", "title": "Leaf of a hierarchical name", "statement": "uvm_leaf_scope returns the part after the last dot of a name that has something before that dot, or the whole name without one; with a bracket separator, the contents of the last, possibly nested, bracket. For a name with a single leading dot the first character of the leaf is lost. A name of one character, also a lone dot or closing bracket, is returned whole.", "quantifier": "every name", "why_tests_cant": "all strings", "anchors": ["src/uvm/base/uvm_misc.py: uvm_leaf_scope"]}
{"id": "C95", "title": "Which integers are printed in the radix asked for", "statement": "For hexadecimal, binary and the other radixes but octal and decimal, the text printed for (value, size, radix) is the low size bits of the value in the base and with the prefix of the radix. In decimal, values in the signed range are printed correctly as bit streams, non-negative ones also as integrals; values with the sign bit set are printed unsigned and without prefix, and negative integrals with 2**size added. Octal is printed in decimal.", "quantifier": "every value, positive size and radix", "why_tests_cant": "all values", "anchors": ["src/uvm/base/uvm_misc.py: uvm_bitstream_to_string/uvm_integral_to_string/num_with_radix"]}
{"id": "C96", "title": "Array index of a name", "statement": "uvm_get_array_index_string returns the text in the final brackets of a name, and nothing if it contains a wildcard or if nothing precedes the bracket.", "quantifier": "every string", "why_tests_cant": "all strings", "anchors": ["src/uvm/base/uvm_misc.py: uvm_get_array_index_string"]}
{"id": "C97", "title": "Copy makes a deep, independent copy of acyclic objects", "statement": "For every object a without cycles below it, after b.copy(a) (b of a's class, not below a) the values of the copied fields of b, through all objects below it, are those of a; no object existing before is changed but b, b shares no uvm object with a, and no state is left over for later copies. For arbitrary objects, a copy that returns changed nothing but b among the existing objects, and in b only fields declared with UVM_COPY and without UVM_NOCOPY.", "quantifier": "every heap of objects, every class layout", "why_tests_cant": "object graphs are unbounded", "anchors": ["src/uvm/base/uvm_object.py: copy/clone", "src/uvm/macros/uvm_object_defines.py: uvm_field_utils_start (UVM_COPY)"]}
{"id": "C98", "title": "Compare decides deep equality of integer fields", "statement": "For objects without cycles, of the same classes at the same places and differing only in integer values, where no object of the right is compared with two of the left, a.compare(b) returns True iff all compared fields, through all objects below, are equal and do_compare of the two objects agrees. Objects of different classes never compare equal when types are checked. With the policy UVM_REFERENCE objects with int and object fields compare equal iff the fields hold equal ints and the very same objects, and do_compare agrees.", "quantifier": "every heap of objects, every class layout, check_type and show_max setting", "why_tests_cant": "object graphs are unbounded", "anchors": ["src/uvm/base/uvm_object.py: compare", "src/uvm/base/uvm_comparer.py: compare_field/compare_object", "src/uvm/macros/uvm_object_defines.py: uvm_field_utils_start (UVM_COMPARE)"]}
{"id": "C99", "title": "A copy compares equal to its original", "statement": "If all fields are copied and compared, then after b.copy(a) of an acyclic a, a.compare(b) is True; b.compare(a) is True too if a holds no object at two places.", "quantifier": "every acyclic object", "why_tests_cant": "object graphs are unbounded", "anchors": ["src/uvm/base/uvm_object.py: copy/compare"]}
{"id": "C100", "title": "Field macros of a derived class act on its base class", "statement": "Declaring a field with the field macros in a class does not change what copy, compare and pack do for instances of classes whose hierarchy uses another field table. A derived class has no table of its own: its fields are added to the table of its base class, where they are processed for base class instances too (copying one of which then raises), and twice for its own instances.", "quantifier": "every single-inheritance class hierarchy", "why_tests_cant": "class hierarchies are unbounded", "anchors": ["src/uvm/macros/uvm_object_defines.py: uvm_field_utils_start/uvm_field_val"]}
{"id": "C101", "title": "Algorithmic comparator compares the transformed stream", "statement": "For any interleaving of writes, the algorithmic comparator publishes transform(i-th before item) with the i-th after item, each once and in order, leaves none out once its run_phase has had its turns, and counts matches and mismatches exactly.", "quantifier": "every transformer, interleaving and stream", "why_tests_cant": "all interleavings and streams", "anchors": ["src/uvm/comps/uvm_algorithmic_comparator.py: write", "src/uvm/comps/uvm_in_order_comparator.py: run_phase"]}
{"id": "C102", "title": "Writing a FIFO register never reaches the DUT", "statement": "No write() outside update() to a FIFO register that has room ever reaches the DUT or returns OK; the value nevertheless stays in the model. On a full one write() is refused with an error and changes nothing.", "quantifier": "every history of calls and bus results without update()", "why_tests_cant": "histories unbounded", "anchors": ["src/uvm/reg/uvm_reg_fifo.py: set/pre_write", "src/uvm/reg/uvm_reg.py: write/do_write"]}
{"id": "C103", "title": "Updating a FIFO register sends the preloaded values repeatedly", "statement": "After k calls of set(), update() sends these k values to the DUT in order over and over until the model is full; so it sends each exactly once, leaving the model's contents unchanged, exactly when the FIFO was full already. After randomize() the values set before are forgotten: update() sends nothing.", "quantifier": "every contents, capacity and number of preloaded values, every bus result", "why_tests_cant": "all contents and capacities", "anchors": ["src/uvm/reg/uvm_reg_fifo.py: set/update"]}
{"id": "C104", "title": "Connection counts of ports", "statement": "Resolution reports a port with fewer implementations than its minimum or more than its maximum, exactly once, and no other port; get_if(k) gives the implementations in the order in which a write reaches them and nothing for any k without one; a port with a single implementation calls that implementation.", "quantifier": "every acyclic connection graph over ports with distinct full names, every order of resolution", "why_tests_cant": "all graphs and bounds", "anchors": ["src/uvm/base/uvm_port_base.py:644-669"]}
{"id": "C105", "title": "Iteration over children is exact when not nested", "statement": "A single iteration with get_first_child and get_next_child gives each child exactly once, in order, from any state. Iterations over the same component share one position: a callback that iterates over its parent's children during a phase walk can make the walk endless.", "quantifier": "every component tree", "why_tests_cant": "all trees and nestings", "anchors": ["src/uvm/base/uvm_component.py:343-373"]}
{"id": "C106", "title": "get_num_waiters counts the wait calls that had to wait since the last trigger or reset", "statement": "Without callbacks, get_num_waiters() of an event is the number of wait calls that had to wait (every wait_trigger, wait_ptrigger of an event not set, wait_on while off, wait_off while on) since the last trigger or reset, less the cancel() calls, never below 0. It is not the number of processes still waiting: a returned wait_trigger stays counted, a trigger forgets processes waiting for off.", "quantifier": "every schedule of triggers, resets, waits and cancels", "why_tests_cant": "Tests see a few schedules; the count depends on the whole history.", "anchors": ["src/uvm/base/uvm_event.py:89-232"]}
{"id": "C107", "title": "Explicit prediction assembles bus transfers per register", "statement": "For every history of bus transfers observed by a predictor that starts with nothing pending, where each transfer to a register r goes to one of r's (distinct) addresses with byte enable -1: cutting the transfers to r into accesses (complete with the n-th distinct address of r, in any order and interleaved with transfers to other registers; lost when an address repeats before that), exactly this is heard about r, in order: a complete access publishes one item with the kind of its first transfer and the value that has each transfer's data at its address's place, preceded by a mismatch error exactly for a read with check-on-read that differs from the mirror; a lost access reports one collision. The mirror is that of the complete accesses predicted in order, and check_phase names r exactly if an access is open. A register with a repeated address is never predicted, changed or published.", "quantifier": "all predictor configurations, all finite histories of transfers, all registers", "why_tests_cant": "The number of interleavings of multi-word accesses to several registers is unbounded; tests show single-register, in-order accesses.", "anchors": ["src/uvm/reg/uvm_reg_predictor.py:143-264"]}
{"id": "C108", "title": "A map access seen on the bus is predicted as that access", "statement": "For every chain of usable maps of which C31's address theorem holds, every register size n, value below 2^(8n), every order in which a conforming user transaction order sequence issues the words, and every history in which the transfers to r are a permutation of the words of one write() (all transfers OK), interleaved with any transfers to other registers: the predictor of the top map publishes exactly one write of that value, leaves r not pending, and the mirror is that of the write; after set/write by the user it is the same as automatic prediction would give. Likewise for read(): published value is the value read() returns and the mirror is that of the automatic prediction of a read. This needs the predictor's map to have the width used by the access (a wider top map garbles the value).", "quantifier": "all map chains, registers, values, transfer orders and interleavings", "why_tests_cant": "Relates three components (map splitting, transfer order, predictor) over all widths and orders; unit tests fix one of each.", "anchors": ["src/uvm/reg/uvm_reg_predictor.py:143-247", "src/uvm/reg/uvm_reg_map.py:1189-1434", "src/uvm/reg/uvm_reg.py:1364-1779"]}
{"id": "C109", "title": "Memory accesses stay with the elements asked for", "statement": "For every mapped memory, path leading to the bus, start offset below the size and list of values: write()/burst_write() performs exactly the bus write of the values at the element addresses offset, offset+1, ..., returns its status, and reports an error exactly if the last element lies beyond the end or the memory is wider than the map while bursting; if it reports nothing (and the offset is not negative) every bus address used belongs to an element of the memory. An offset at or beyond the size never reaches the bus: the front door raises, the other paths report the error (and return OK), for reads as for writes; without an HDL path they report that too, change nothing and read zeros. burst_read() never reads: it returns no values with status NOT_OK. poke() then peek() through HDL paths returns the value cut to the width at that offset and the old value at others, without touching the bus. Limits: a burst past the end is reported but performed; a negative offset is not detected. A burst write through HDL paths followed by reads of any length through them gives the written values cut to the width at the offsets written and the old values elsewhere.", "quantifier": "all memory configurations, devices, paths, offsets, value lists, bus orders", "why_tests_cant": "Every burst position against every size; the report and the effect must agree for all of them.", "anchors": ["src/uvm/reg/uvm_mem.py:883-1410", "src/uvm/reg/uvm_reg_map.py:1317-1611"]}
{"id": "C110", "title": "What the memory walk test detects", "statement": "For every memory size and width and every device whose addresses reach arbitrary cells with arbitrary stuck bits (none stuck both ways), the memory walk sequence reports no error if and only if no two consecutive addresses reach the same cell and every stuck bit has the value of the complement of its address at that bit. So it passes on every correct memory, which it leaves holding each address cut to the width (the last one complemented), also through any map hierarchy for which C80's burst theorem holds; it misses aliasing of non-adjacent addresses. A write that the bus refuses makes the sequence raise; a refused read is reported, and so is a refused write that restores an element already checked.", "quantifier": "all sizes, widths, decodings, stuck-at fault sets, initial contents, map hierarchies", "why_tests_cant": "The set of decodings and fault combinations is infinite; a test injects a few faults.", "anchors": ["src/uvm/reg/sequences/uvm_mem_walk_seq.py:60-170"]}
{"id": "C111", "title": "What the memory access test detects", "statement": "For every read-write memory and draw of numbers: with front and back door reaching the same cells, the memory access sequence reports no error if and only if no cell has a stuck bit and every number drawn fits the width; without stuck bits, if and only if every element has the same cell through both doors and the numbers fit. So two elements sharing one cell are never noticed. The numbers always fit widths up to 32 bits, and a width n above only if the first random number is below 2^(n-32): correct memories of 33 to 62 bits fail at random. A read-only memory makes the sequence raise, and one with read-only rights in one of several maps is reported although correct. A test that raises (at once for a read-only memory, else when a front door access fails) does so at the end, once.", "quantifier": "all widths, sizes, draws, decodings of both doors, fault sets, initial contents", "why_tests_cant": "Quantifies over random draws and all fault sets.", "anchors": ["src/uvm/reg/sequences/uvm_mem_access_seq.py:70-187"]}
{"id": "C112", "title": "Overlapping memories are refused", "statement": "For every sequence of memory address ranges, entering them into the map raises exactly if two of them have an address in common. In a map without parent the range of a memory runs from the lowest address of its first to the highest of its last element and contains every address of every element. Below another map of other endianness words may lie outside the range, so an overlap goes unnoticed.", "quantifier": "all lists of ranges, all flat maps, offsets, element sizes and memory sizes", "why_tests_cant": "All layouts of any number of memories.", "anchors": ["src/uvm/reg/uvm_reg_map.py:163-216"]}
{"id": "C113", "title": "start() calls the hooks in the documented order, one start at a time", "statement": "For every sequence and every interleaving of calls of start(), of their hooks and of the other methods: what is seen of an accepted start() is a beginning of pre_start, pre_body, parent.pre_do, parent.mid_do, body, parent.post_do, post_body, post_start, return (the body hooks only with call_pre_post, the parent's only with a parent argument), each hook seeing its own value of get_sequence_state(); if no hook raises and the call is resumed often enough, all of it. Hooks of two starts of the same sequence are never mixed: one is called only when the other start has reached post_start. A start() with priority at least -1 is accepted if all earlier ones have returned, and ends in the fatal error, starting nothing, while an earlier one has not reached post_start or for ever after a hook has raised. An accepted start() sets the priority (argument, or parent's, or 100). wait_for_sequence_state() never waits: it returns if the sequence is finished and the mask has UVM_FINISHED, and raises otherwise.", "quantifier": "all sequences, arguments, parents, hook behaviours and interleavings of any number of start() calls", "why_tests_cant": "Tests run a few schedules; that hooks of concurrent starts never mix, and that a second start is refused exactly then, must hold for every interleaving at every await.", "anchors": ["src/uvm/seq/uvm_sequence_base.py:223-241", "src/uvm/seq/uvm_sequence_base.py:261-427"]}
{"id": "C114", "title": "Automatic phase objections are held exactly while the hooks run", "statement": "For every sequence started again only after the last start() has returned, and any calls of the setters and getters of starting phase and automatic objection in between: no objection is outstanding while no start() is under way, before pre_start is called, and once the state is UVM_FINISHED. From the call of pre_start until post_start has returned - and for ever if a hook raises - exactly one objection to the starting phase is outstanding if automatic objection is on and there is a starting phase, and none otherwise; the settings cannot be changed in that time. Limit: started again when the state is UVM_FINISHED but before the first start() has returned, the sequence can leave an objection outstanding for ever. When start() returns, the setting for automatic objections has kept its value and can be changed again, and the starting phase is unset.", "quantifier": "all sequences, settings, schedules and numbers of restarts without overlapping starts", "why_tests_cant": "A leaked or missing objection shows only as a phase that never ends or ends too early under particular schedules.", "anchors": ["src/uvm/seq/uvm_sequence_base.py:367-383", "src/uvm/seq/uvm_sequence_base.py:421-425", "src/uvm/seq/uvm_sequence_base.py:543-698", "src/uvm/dap/uvm_get_to_lock_dap.py:40-100"]}
{"id": "C115", "title": "The sequencer and the parent know a sequence exactly while it runs", "statement": "For every sequence started again only after the last start() has returned: while it runs the sequencer has it under its current id and no other, and after start() has returned under none; it is among the children of its parent sequence and of no other from start() to its return. Every start() with a sequencer uses an id not in use, also when starts overlap. Limits: overlapping starts leave the first id registered for ever; a refused start() with another parent leaves the child with the old parent for ever; an illegal priority leaves a child entry; a restart without parent argument keeps the old parent, but with a root's priority and without its pre_do/mid_do/post_do. The id of a start() differs from every id any other sequence gets, before or after; without a sequencer there is none.", "quantifier": "all sequences, sequencers, parents, schedules and numbers of restarts", "why_tests_cant": "The tables are internal until arbitration or kill uses them; stale entries appear only after many restarts and particular orders.", "anchors": ["src/uvm/seq/uvm_sequence_base.py:300-369", "src/uvm/seq/uvm_sequencer_base.py:1023-1049", "src/uvm/seq/uvm_sequence_item.py:118-136"]}
{"id": "C116", "title": "Every component has one place, one parent and one full name", "statement": "In any testbench built by calling component constructors, every component is reached from uvm_top by exactly one sequence of child names, and get_full_name() is these names joined with dots. If no name contains a dot, two components never have the same full name and get_depth() is the length of the sequence (0 for uvm_top while it has no name). A constructor reports a fatal error exactly when the build phase has ended or the parent already has a child of that name (an empty name is replaced by COMP_ and a number first), and then no child is added; otherwise exactly one child is added. Names, parents and children never change or go away afterwards: set_name() on a component other than uvm_top is refused. get_child, has_child, get_num_children, get_children, get_parent and the first/next iteration agree with each other. A name with a dot can make two components share a full name. The number in COMP_ is one more than the number of objects made before, counting those the constructor itself makes and the components refused.", "quantifier": "all sequences of constructor, set_name, query, iteration, lookup and find calls, all names and trees", "why_tests_cant": "Name clashes and iteration depend on the order and shape of the whole construction history; a test looks at a few trees.", "anchors": ["src/uvm/base/uvm_component.py:158-280", "src/uvm/base/uvm_component.py:301-405", "src/uvm/base/uvm_component.py:445-460", "src/uvm/base/uvm_component.py:2139-2157", "src/uvm/base/uvm_component.py:2552-2569"]}
{"id": "C117", "title": "lookup() follows names and full names can be looked up", "statement": "comp.lookup('a.b.c') returns the component reached from comp by the child names a, b, c if there is one and otherwise returns None after one warning; with a leading dot the names are followed from uvm_top whatever component is asked. If no component name has a dot, looking up '.' plus the full name of a component gives that component, from everywhere. For any string at all lookup() returns either a strict descendant of comp or of uvm_top, or None with one warning, and changes nothing. Two dots in a row restart at uvm_top, a trailing dot and an empty name are not found, and a component whose own name has a dot cannot be found.", "quantifier": "all trees reached by any calls, all components asked, all strings", "why_tests_cant": "The round trip between full names and lookup concerns all trees and strings; tests use hand-picked paths.", "anchors": ["src/uvm/base/uvm_component.py:407-442", "src/uvm/base/uvm_component.py:2180-2203"]}
{"id": "C118", "title": "find_all() returns exactly the matching components, descendants first", "statement": "uvm_top.find_all(pattern, comps, comp) appends, each exactly once, the components at or below comp with a non-empty name of whose full name some part fits the pattern; every component comes after its matching descendants. It changes no name, parent or child relation and no child iteration outside the searched subtree, but ends iterations in progress inside it. find(pattern) returns the first of find_all from uvm_top, with a warning if there are more, and raises a TypeError instead of returning None if there is none. Therefore find() with the full name of a component that has children returns some other component.", "quantifier": "all trees reached by any calls, all patterns of plain characters, * and ?, all start components", "why_tests_cant": "That nothing is missed or repeated, and the order, are statements about all trees and patterns.", "anchors": ["src/uvm/base/uvm_root.py:398-439", "src/uvm/base/uvm_root.py:467-489", "src/uvm/base/uvm_component.py:343-373"]}
{"id": "C119", "title": "The bit bash test raises no false alarms", "statement": "For every register with non-overlapping fields of any access policies within the data width, and every design that implements the policies (whatever it returns for unreadable fields): if the model's mirror agrees with the design when uvm_reg_bit_bash_seq starts, the test reports no error through any number of maps, raises nothing, and leaves the mirror in agreement with the design. For write-once fields all maps must have read/write rights: after a pass through a read-only map the model believes the field written and a correct design is reported. A field ending beyond UVM_REG_DATA_WIDTH makes the test raise an IndexError before any access.", "quantifier": "all layouts, access policies, comparison settings, designs implementing the policies, values and map lists", "why_tests_cant": "Needs every combination of 25 policies, map rights, layouts and hidden design state; a test has one design.", "anchors": ["src/uvm/reg/sequences/uvm_reg_bit_bash_seq.py:69-194", "src/uvm/reg/uvm_reg.py:852-1009"]}
{"id": "C120", "title": "What the bit bash test detects", "statement": "For a register of compared read/write fields and a design whose read value is any function F of the last written value, uvm_reg_bit_bash_seq through a read/write map reports no error if and only if F returns the field bits of every value that differs from the register value in one bit (for all bits up to the last byte) and, if there is a field, of the register value itself. Hence a design in which every read bit is some written bit or a constant passes only if it returns exactly the field bits of every value: stuck, swapped, copied or leaking bits are always found. A fault that shows only when two bits differ from the initial value is not found. For registers with fields of any access policy, the bits that are flipped are exactly those, up to the last byte of the register, that belong to no field excluded from comparison and to no field that cannot be read through the map; bits outside of all fields are flipped too.", "quantifier": "all registers of read/write fields, all functions F, all initial values", "why_tests_cant": "The claim covers all faulty designs; tests try a few.", "anchors": ["src/uvm/reg/sequences/uvm_reg_bit_bash_seq.py:69-194"]}
{"id": "C121", "title": "What the reset test checks and which blocks it reaches", "statement": "For one register and map the reset test reports a mismatch exactly if some bit outside the fields excluded from comparison is read different from the mirrored value, bits outside of all fields being expected 0; write-only fields are compared too; the comparison is made also when the read status is not OK, which is reported in addition. The value read updates the mirrored value bit by bit as a read through that map does. In a tree of blocks, the registers of the map of a block are tested through the maps that come before the block's first map with submaps and are in a block that is not excluded; blocks inside are visited once for each such map, and again from every block in between, so a block x below blocks c1..cn below the top is tested t(top) * (1+t(c1)) * ... * (1+t(cn)) * t(x) times with t the number of such maps. If the first map of the top block has submaps, nothing at all is tested.", "quantifier": "all registers, read values, statuses; all block trees, exclusions and map structures", "why_tests_cant": "Coverage of a traversal for all trees, and silence where nothing is tested, cannot be seen from passing tests.", "anchors": ["src/uvm/reg/sequences/uvm_reg_hw_reset_seq.py:98-149", "src/uvm/reg/uvm_reg.py:1064-1144", "src/uvm/reg/uvm_reg.py:1339-1361", "src/uvm/reg/uvm_reg_block.py:447-452"]}
{"id": "C122", "title": "Which blocks the bit bash, access and memory tests reach", "statement": "For every tree of blocks, do_block() of these tests ends, visits only blocks of the tree, tests the top block once unless it is excluded, and tests any other block exactly 2^k times, k being the number of blocks strictly between it and the top that are not excluded, unless it or the top is excluded. Excluding a block does not exclude the blocks inside it.", "quantifier": "all block trees with distinct blocks and all exclusions", "why_tests_cant": "The count over all trees and exclusions is a theorem about the recursion.", "anchors": ["src/uvm/reg/sequences/uvm_reg_bit_bash_seq.py:247-275", "src/uvm/reg/sequences/uvm_reg_access_seq.py", "src/uvm/reg/sequences/uvm_mem_walk_seq.py", "src/uvm/reg/uvm_reg_block.py:447-452"]}
{"id": "C123", "title": "A recorder writes a well-formed history and only moves forward", "statement": "In every history of recording calls (direct use of recorders, transactions, component recording) with the text database open: the lines of one recorder are its opening, then attributes and closings, then at most one freeing, which is last; the opening and the last closing carry the times the recorder reports. A recorder never returns to an earlier state. After free() record_* and free() change nothing and close() raises, for the rest of the run. After close_db() of an open database nothing is written and no stream or recorder is opened ever again, open_db() included. close() is not idempotent: a recorder that is closed but not freed is closed again, at the new time, and still accepts attributes.", "quantifier": "all histories of calls, recorders, times and attributes", "why_tests_cant": "The flags are compared with `is False` but hold 0 after closing; which calls are still effective depends on the whole history of open, close and free.", "anchors": ["src/uvm/base/uvm_recorder.py:185-337", "src/uvm/base/uvm_recorder.py:795-993", "src/uvm/base/uvm_tr_database.py:74-127", "src/uvm/base/uvm_tr_stream.py:337-384"]}
{"id": "C124", "title": "A handle finds its recorder until it is freed", "statement": "get_handle() of a recorder that was opened returns its own handle. As long as no freed recorder is asked for its handle (directly, as the recorder of a parent sequence, or as the one a component kept), get_recorder_from_handle() returns a recorder exactly for the handle of a recorder that is not freed. Asking a freed recorder registers it again, and the handle then finds the freed recorder.", "quantifier": "all histories of calls and all handles", "why_tests_cant": "Handles are registered as a side effect of writing lines; the absence of stale or missing entries is over all interleavings.", "anchors": ["src/uvm/base/uvm_recorder.py:230-257", "src/uvm/base/uvm_recorder.py:371-427"]}
{"id": "C125", "title": "begin_tr and end_tr record each transaction exactly once", "statement": "In every history of transactions sharing streams, in which recording is not switched off again: no call raises; every recorder opened is open and held by exactly one transaction, with only its opening line carrying that transaction's begin time, or held by none and then ended exactly once (attributes, closing, freeing if asked). end_tr() ends the transaction's recorder with its end time; begin_tr() of a transaction that has not ended ends the old recorder at the same time, triggers the end event, and then opens a new one whose handle is returned, as a child if the parent handle finds a recorder. Switching recording off between begin_tr() and end_tr() leaves the recorder open for ever. A transaction with which nothing was done has the begin, end and accept time -1; accept_tr() sets the accept time and nothing else.", "quantifier": "all histories, transactions, streams, times and parent handles", "why_tests_cant": "Leaked or doubly closed recorders show only after particular orders of begin, end and re-begin of several transactions.", "anchors": ["src/uvm/base/uvm_transaction.py:215-225", "src/uvm/base/uvm_transaction.py:361-417", "src/uvm/base/uvm_transaction.py:530-579"]}
{"id": "C126", "title": "Component recording keeps one recorder per transaction; the main stream records only once", "statement": "In every history: begin_tr() of a recording component on a named stream opens one recorder there (and the stream at its first use) with the label lines, returns its handle and keeps it for the transaction until begin_tr() or end_tr() of this component for this transaction, whatever else is called; end_tr() ends it with the end time, and raises if somebody freed it. Once a component has its main stream, begin_tr() without a stream name records nothing and returns 0 for the rest of the run: at most the first transaction appears on the main stream. No history writes a link between recorders, although begin_tr() asks for parent and child links. A second begin_tr() without end_tr(), or switching the recording detail off before end_tr(), leaves a recorder open.", "quantifier": "all histories, components, transactions, stream names and parents", "why_tests_cant": "Needs every earlier call: the effect of one begin_tr() depends on which streams exist and which recorders are kept.", "anchors": ["src/uvm/base/uvm_component.py:1787-2076", "src/uvm/base/uvm_component.py:2233-2323", "src/uvm/base/uvm_tr_database.py:223-294"]}
{"id": "C127", "title": "Updating a block reaches only its own registers and those of its first blocks, and raises when it has blocks", "statement": "update() of a register block writes only registers that lie in the block, in its first sub-block, in that one's first sub-block, and so on. If every register update succeeds, affects no other register and leaves the register up to date, it writes exactly those of these registers that needed it, in order, and no other register changes whether it needs an update. A block with sub-blocks never reports success: it reports the failure of one of its own registers or raises an exception. After a register failed no later register is written.", "quantifier": "all trees of blocks, all register states and register update outcomes", "why_tests_cant": "The status of a sub-block is looked up in a list nobody fills; which registers are skipped depends on the shape of the whole tree.", "anchors": ["src/uvm/reg/uvm_reg_block.py:947-978"]}
{"id": "C128", "title": "Reset, needs_update and mirror cover every register below a block", "statement": "reset() of a block resets, and mirror() reads, all registers of the block and of all blocks below it, each in the order get_registers() gives; needs_update() is true exactly if one of them needs an update. mirror() reports a failure exactly if the mirror of a register failed, and goes on after it. If the mirror of a register returns without a status, the block's mirror raises there and reads no further register.", "quantifier": "all trees of blocks, register states and register outcomes", "why_tests_cant": "A claim about arbitrary hierarchies and every combination of outcomes.", "anchors": ["src/uvm/reg/uvm_reg_block.py:891-928", "src/uvm/reg/uvm_reg_block.py:1002-1021"]}
{"id": "C129", "title": "get_registers and lookup by name agree", "statement": "get_registers() lists the registers of the block followed by those of every block below it in get_blocks() order. get_reg_by_name() returns the first register of that list with the name, and none exactly if no register has it.", "quantifier": "all trees of blocks and all namings, including names used twice", "why_tests_cant": "Ambiguous names in deep hierarchies; a test sees one tree.", "anchors": ["src/uvm/reg/uvm_reg_block.py:447-485", "src/uvm/reg/uvm_reg_block.py:596-625"]}
{"id": "C130", "title": "Locking a model is recursive, complete, final, and always ends", "statement": "In every history of creating blocks, adding blocks and registers and locking: lock_model() ends, even if blocks contain each other, and locks exactly what was locked plus everything at or below the block; a register is locked exactly if it is in a locked block. Everything below a locked block stays locked. A locked block keeps its blocks and registers for the rest of the run. add_block() and add_reg() take effect exactly if the block is not locked and does not already have the element, which is then last; nothing is ever contained twice.", "quantifier": "all histories, block graphs including cyclic ones, and blocks", "why_tests_cant": "An invariant over unbounded histories and graphs; termination with cycles.", "anchors": ["src/uvm/reg/uvm_reg_block.py:213-263", "src/uvm/reg/uvm_reg_block.py:309-320"]}
{"id": "C131", "title": "A full HDL path joins one path of every level down from the nearest root", "statement": "A path is in get_full_hdl_path() of a block exactly if it joins, with the separator, one path of that kind of every block from the nearest path root (or the top) down to the block, empty ones left out. Blocks below a block without path of the kind start on their own. The default kind is that of the nearest block that has one, resolved once for all levels. For a register in a block, the result holds exactly the combinations of one of its concatenations with one path of its block; a slice with an empty path becomes the block's path without offset and size, and a register whose block has no path has none. For a register in a register file the call raises, unless a kind is given that the register has no path of.", "quantifier": "all hierarchies, kinds, sets of paths, roots and separators", "why_tests_cant": "Products of alternative paths over any number of levels with roots, empty paths and missing kinds in between.", "anchors": ["src/uvm/reg/uvm_reg_block.py:1237-1301", "src/uvm/reg/uvm_reg.py:2028-2068"]}
{"id": "C132", "title": "Printing an object ends, shows every object once per path, and leaves the printer as it was", "statement": "For every finite graph of objects and components, cyclic or not, in which no object or array that has something below it has an empty name or one starting with a bracket: sprint() ends, its rows are the header of the object, then those of its printed children in order, then those of its fields, arrays and sub-objects in order; an object that is already being printed around, or lies below the depth limit, gives only its header. The level of a row is the number of objects and arrays around it, and its full name joins their names and its own by dots. Afterwards the printer is as before, so that any number of prints are independent. Sub-objects named like array elements (\"[0]\") close the array and the object around them, and later rows have wrong levels.", "quantifier": "all object graphs including cyclic ones, component hierarchies, names, depth limits", "why_tests_cant": "Cycles and arbitrary nesting; the shared scope stack must be restored on every path.", "anchors": ["src/uvm/base/uvm_printer.py:131-312", "src/uvm/base/uvm_object.py:345-357", "src/uvm/base/uvm_scope_stack.py:24-94"]}
{"id": "C133", "title": "The tree printer nests brackets like the rows", "statement": "Whenever the first row has level 0 and levels rise by at most one from row to row, which holds for every object printed (C132), the brackets of the tree printer match, and every row stands in exactly as many brackets as its level says. All row names appear, once and in order; the value of a row is printed unless rows below it follow.", "quantifier": "all sequences of rows and all printed objects", "why_tests_cant": "Bracket matching is a property of arbitrary row sequences.", "anchors": ["src/uvm/base/uvm_printer.py:776-861"]}
{"id": "C134", "title": "Table columns line up, except that nested rows start one column earlier", "statement": "If no indented name, type or size is wider than 98 characters: in the table printer's output the header, and all rows that are not indented, have type, size and value at the same three columns, each separated by at least one blank; the rows that are indented have all three exactly one column earlier, and their indent is one less than asked for. Names wider than that shift the columns of short names.", "quantifier": "all tables, indents and widths", "why_tests_cant": "A claim about all combinations of widths; the slices are off by one in a way that mostly cancels.", "anchors": ["src/uvm/base/uvm_printer.py:653-745"]}
{"id": "C135", "title": "The memory manager reserves at most one region in its life", "statement": "For a manager with at least one byte per location and any sequence of reserve_region() requests for at least one byte: a request that starts too early or ends past the memory is refused; the first one that fits gets a region starting where asked and just large enough; every later one that fits raises an exception, overlapping or not.", "quantifier": "all configurations and request sequences", "why_tests_cant": "A statement about every history.", "anchors": ["src/uvm/reg/uvm_mem_mam.py:193-239"]}
{"id": "C136", "title": "Looking up command line arguments", "statement": "For every command line: get_arg_values(m) gives, in order, the rests of exactly the arguments that start with m, and get_arg_value(m) their number and the first of them. get_arg_matches(m) gives the arguments that start with m; if m is written between slashes, those the enclosed expression matches after the loss of its last character. Empty arguments are dropped; get_uvm_args() gives those whose second to fourth characters are uvm in any case, whatever the first; get_plusargs() gives one plain \"+\" for each plus argument.", "quantifier": "all command lines and patterns", "why_tests_cant": "Arbitrary argument lists and patterns, including those that are prefixes of others.", "anchors": ["src/uvm/base/uvm_cmdline_processor.py:344-466", "src/uvm/base/uvm_cmdline_processor.py:515-535"]}
{"id": "C137", "title": "+uvm_set_action tells each component exactly what the lines for it say", "statement": "For all lines that are not too short and all components in whatever order of creation: a component is told, line by line, the actions named for the severity and id given (all four severities, or all ids, for _ALL_) by the lines whose pattern matches its full name, and nothing else. Lines for UVM_INFO and lines that name no action but UVM_NO_ACTION are dropped; a word that is no severity counts as severity -1; fields after the fourth are ignored. If any line is too short, the creation of every component raises.", "quantifier": "all sets of lines, component names and orders of creation", "why_tests_cant": "All combinations of lines, wildcards and components.", "anchors": ["src/uvm/base/uvm_component.py:2431-2485", "src/uvm/base/uvm_globals.py:201-233"]}
{"id": "C138", "title": "+uvm_set_severity tells each component exactly what the lines for it say", "statement": "For all lines and components: a component is told, line by line, to override the severity given (all four for _ALL_), for the id given or all, by the new severity, by those lines whose pattern matches its full name, and nothing else. Lines without exactly four fields, lines from UVM_INFO, and lines whose new severity is unknown are dropped; an unknown original severity counts as -1.", "quantifier": "all sets of lines and component names", "why_tests_cant": "All combinations of lines, wildcards and components.", "anchors": ["src/uvm/base/uvm_component.py:2488-2545", "src/uvm/base/uvm_globals.py:201-210"]}
{"id": "C139", "title": "+uvm_set_verbosity takes effect at once or breaks the first phase", "statement": "If all lines have four or five fields, a known verbosity and an integer offset: on creation a component is given, in order, the verbosities of exactly the lines that match its full name, have no offset, and name no phase, build, or time. Matching lines for any other phase, or with an offset in build, are kept, and the first phase the component runs then raises; without one it does not. If a malformed line is not the last one, the creation of the first component raises; if it is the last, the first component ignores it while others are set to level -1.", "quantifier": "all sets of lines and components", "why_tests_cant": "All combinations of lines and components; the failure depends on the position of the line.", "anchors": ["src/uvm/base/uvm_component.py:2344-2399", "src/uvm/base/uvm_component.py:2571-2599", "src/uvm/base/uvm_cmdline_processor.py:538-572"]}
{"id": "C140", "title": "Timed verbosity settings are applied after the difference from the one before", "statement": "For all timed settings: they are started in order of their offsets, equal ones in the order given, and each is applied after its offset minus that of the one before it. So a setting is applied at its offset if and only if it is the first or the one before it has offset 0.", "quantifier": "all lists of timed settings", "why_tests_cant": "Arbitrary many settings and offsets.", "anchors": ["src/uvm/base/uvm_component.py:2402-2425"]}
{"id": "C141", "title": "Configuration settings from the command line", "statement": "For every command line: +uvm_set_config_int and +uvm_set_config_string, in either case, set exactly the fields the lines with three fields say; all others are reported. All integers come before all strings, otherwise the order is kept. The integer is read by its prefix 'b, 0b, 'o, 'd, 'h, 'x or 0x, without one as decimal; the first that cannot be read raises, and nothing after it is set.", "quantifier": "all command lines", "why_tests_cant": "Arbitrary argument lists.", "anchors": ["src/uvm/base/uvm_root.py:644-658", "src/uvm/base/uvm_root.py:719-775"]}
{"id": "C142", "title": "Quit count and time-out from the command line", "statement": "The first +UVM_MAX_QUIT_COUNT sets the count (0 if negative) if its second field is missing, YES or NO, unless the code has forbidden it before; with another second field it is ignored. NO protects nothing: after it any setting takes effect. +UVM_TIMEOUT never sets the number given: with a second field it sets that word, without one 0.", "quantifier": "all values and states", "why_tests_cant": "A claim about all later calls.", "anchors": ["src/uvm/base/uvm_root.py:370-391", "src/uvm/base/uvm_root.py:553-591", "src/uvm/base/uvm_root.py:666-701", "src/uvm/base/uvm_report_server.py:193-203"]}
{"id": "C143", "title": "What sort_by_precedence does to a list of resources", "statement": "For every list, UVMResourcePool.sort_by_precedence returns a permutation of it in which resources of the same precedence keep their order. Different precedences are put in the reverse order of their first appearance, whatever their values; so the highest comes first whenever every precedence that appears anew is higher than those before, but not in general.", "quantifier": "all lists of resources and precedences", "why_tests_cant": "Claims about every list, its length and its ties.", "anchors": ["src/uvm/base/uvm_resource.py:1261-1291"]}
{"id": "C144", "title": "lookup_scope finds exactly the visible resources", "statement": "In every pool reached by any operations, lookup_scope(path) returns exactly the stored resources whose scope matches the path. Names come in the reverse order of their first use; the resources of one name come in the order in which a lookup of that name finds them, and every name with a resource is searched.", "quantifier": "all sequences of pool operations and all paths", "why_tests_cant": "The order depends on the whole history.", "anchors": ["src/uvm/base/uvm_resource.py:1432-1466", "src/uvm/base/uvm_resource.py:1005-1068", "src/uvm/base/uvm_pool.py:119-162"]}
{"id": "C145", "title": "What automatic configuration gives the fields of a component", "statement": "For every component and all visible resources: after apply_config_settings a writable declared field has the value of the last resource, in the sorted order, whose name is that of a declared field and occurs anywhere in the name of this field (so a setting for \"a\" also overwrites \"addr\"), if its value is an int, string or object; without one it is unchanged. A single such resource gives the field its value. Read-only fields and undeclared attributes never change. Without type proxies and object settings with \".\" or \"*\" in the name it never raises and changes no other object.", "quantifier": "all components, field lists and lists of resources", "why_tests_cant": "All combinations of field names, resources and precedences.", "anchors": ["src/uvm/base/uvm_component.py:1154-1253", "src/uvm/base/uvm_object.py:899-1030", "src/uvm/macros/uvm_object_defines.py:129-145", "src/uvm/macros/uvm_object_defines.py:199-268"]}
{"id": "C146", "title": "Automatic configuration against UVMConfigDb.get", "statement": "In every reachable pool: if a field's name has exactly one visible resource and no other visible name of a declared field occurs in it, automatic configuration gives the field what UVMConfigDb.get returns for it. With two settings they can differ: get returns the newer, or the one from higher up during build, and automatic configuration takes the other.", "quantifier": "all sequences of pool operations, components and paths", "why_tests_cant": "Compares two readers of the database after any history.", "anchors": ["src/uvm/base/uvm_component.py:1154-1253", "src/uvm/base/uvm_config_db.py:90-261", "src/uvm/base/uvm_resource.py:1261-1291", "src/uvm/base/uvm_resource.py:1432-1466"]}
{"id": "C147", "title": "Setting fields of objects by a dotted name", "statement": "If set_object_local(\"a.b\", v) returns, field b of the object in field a is v; whatever changed is a writable field with a name that starts with b, in an object reached by a path that ends in a, and now is v. It never returns when some writable field of the component holds an int or a string.", "quantifier": "all object graphs, including shared and cyclic ones", "why_tests_cant": "Arbitrary object graphs.", "anchors": ["src/uvm/base/uvm_object.py:944-1030", "src/uvm/macros/uvm_object_defines.py:233-262", "src/uvm/base/uvm_misc.py:319-341"]}
{"id": "C148", "title": "Dotted settings in automatic configuration depend on what came before", "statement": "In apply_config_settings an object setting named a.b is passed on to set_object_local if the names handled before it left the search position at or before the end of a, in particular if it comes first. After any visible resource with a plain name longer than a it is silently ignored, whatever that name is.", "quantifier": "all lists of resources", "why_tests_cant": "Depends on the order and lengths of unrelated names.", "anchors": ["src/uvm/base/uvm_component.py:1207-1240"]}
{"id": "C149", "title": "What pack() of an object with field macros returns", "statement": "For every object whose packed fields are ints and objects of this kind, none below itself: pack() returns a size of 32 times the number of ints and the ints one after the other in field order, going into the objects, 32 bits each, most significant bit first for the default packer and least significant first for a little endian one; all must be in 0..2**32-1. For the default packer the first int that is not in this range makes pack() never return if it is negative and raise if it is too large; a little endian packer combines the overlapping ints by or. With the reference policy only the ints of the object itself are packed.", "quantifier": "all object structures, values and bit orders", "why_tests_cant": "Arbitrary nesting and values.", "anchors": ["src/uvm/base/uvm_object.py:694-735", "src/uvm/base/uvm_object.py:1040-1055", "src/uvm/base/uvm_packer.py:172-181", "src/uvm/base/uvm_packer.py:336-358", "src/uvm/macros/uvm_object_defines.py:269-281"]}
{"id": "C150", "title": "Unpacking the packed bits", "statement": "unpack(bits) gives the i-th int of the structure its 32 bits of the stream if the number bits has at least 32(i+1) binary digits and 0 otherwise, and changes nothing else. So packing an object and unpacking the bits into one with equally many ints keeps every int except possibly the last that is not 0: this one is lost (becomes 0) unless it is odd (default packer) or its bit 31 is set (little endian). Unpacking from the packer object itself is exact.", "quantifier": "all object structures, values, bit streams and bit orders", "why_tests_cant": "The loss depends on all values together.", "anchors": ["src/uvm/base/uvm_object.py:803-808", "src/uvm/base/uvm_object.py:1059-1083", "src/uvm/base/uvm_packer.py:409-426", "src/uvm/base/uvm_packer.py:591-619", "src/uvm/base/uvm_packer.py:688-701", "src/uvm/macros/uvm_object_defines.py:283-296"]}
{"id": "C151", "title": "Objects left out of packing after an exception", "statement": "If pack() raises, the objects entered on the way to the offending field, which is None, an empty string or an int that does not fit, stay marked as being packed; pack() and unpack() keep all marks, calls that return add none, and an object with a mark is left out of every later pack() whatever it holds, until a set_int_local, set_string_local or set_object_local of any object, after which packing is complete again. Packing and unpacking never recurse endlessly, for cyclic structures too.", "quantifier": "all object graphs and sequences of calls", "why_tests_cant": "Depends on the history of unrelated calls.", "anchors": ["src/uvm/base/uvm_packer.py:336-358", "src/uvm/base/uvm_packer.py:591-619", "src/uvm/base/uvm_misc.py:250-300", "src/uvm/base/uvm_object.py:899-930"]}
{"id": "C152", "title": "Strings through pack() and unpack()", "statement": "Little endian, an object with ints followed by a final string of characters 1..255: packing and unpacking the bits restores all ints, and the string without its first character if that is below 128, that is, for every ASCII text; otherwise the whole string. An empty string makes pack() raise. With the default packer characters come back with reversed bits, and values after a string are taken for part of it.", "quantifier": "all values, strings and structures before the string", "why_tests_cant": "Arbitrary strings and fields.", "anchors": ["src/uvm/base/uvm_packer.py:277-290", "src/uvm/base/uvm_packer.py:523-554", "src/uvm/macros/uvm_object_defines.py:269-296"]}
{"id": "C153", "title": "Cloning and copying register items", "statement": "In every history of new, clone(), copy() and attribute writes on register items and copies of other objects: clone() of an item has all attributes of the item and its very value list, so what is written into either list shows in both until one of them gets another list, unless this item was already cloned or copied from since the last copy of an object that is not a register item; then the clone is a blank new item (READ, value [0], no map) with a list of its own, and copy() into an existing item leaves it as it is. No other item changes.", "quantifier": "all histories of copies and writes", "why_tests_cant": "Depends on every earlier copy of any object.", "anchors": ["src/uvm/reg/uvm_reg_item.py:198-229", "src/uvm/base/uvm_object.py:282-299", "src/uvm/base/uvm_object.py:511-539"]}
{"id": "C154", "title": "Writing a register behind an index/data pair", "statement": "In every reachable state with the locks of the three registers free: write(v) of register n of the table of an indirect register, the index write succeeding, puts exactly two operations on the bus: the write of n to the index register and then a READ of the data register through the default map (or, if another process copied an object meanwhile, a write of the number n to it). v reaches neither the bus nor the mirror: bus, status, mirror and, with auto prediction, desired values are the same for every v. The status is that of the second operation and auto prediction mirrors n in register n and changes no other register of the table.", "quantifier": "all reachable states, registers, values, maps, widths and bus answers", "why_tests_cant": "Depends on which items were copied before.", "anchors": ["src/uvm/reg/uvm_reg_indirect.py:373-410", "src/uvm/reg/uvm_reg_indirect.py:148-168", "src/uvm/reg/uvm_reg.py:1389-1553", "src/uvm/reg/uvm_reg_item.py:198-229"]}
{"id": "C155", "title": "Reading a register behind an index/data pair", "statement": "In every reachable state with the locks free: read() of register n of the table writes n to the index register through the map asked for, then reads the data register, through the default map unless another process copied an object meanwhile; it returns the status and the data of this read (0 if it fails), auto prediction mirrors the value in register n only, and the locks are as before.", "quantifier": "all reachable states, registers, maps, widths and bus answers", "why_tests_cant": "Arbitrary states and histories.", "anchors": ["src/uvm/reg/uvm_reg_indirect.py:373-410", "src/uvm/reg/uvm_reg_indirect.py:148-168", "src/uvm/reg/uvm_reg.py:1579-1757"]}
{"id": "C156", "title": "An index write that fails", "statement": "If the bus answers the index write with an error, read() and write() of the register return status OK and, for a read, the number of the register as the data, which auto prediction also mirrors; nothing is done with the data register. From then on no access to any register of the table, the index register or the data register returns or reaches the bus, whatever else is called, until reset() of both. In all other cases an access that finds the locks free ends and gives them back.", "quantifier": "all reachable states and all later calls", "why_tests_cant": "The later calls are unbounded.", "anchors": ["src/uvm/reg/uvm_reg_indirect.py:384-410", "src/uvm/reg/uvm_reg.py:814-816", "src/uvm/reg/uvm_reg.py:1252-1278"]}
{"id": "C157", "title": "Which class type_id.create() instantiates", "statement": "In every history of class registrations, overrides, creations, set_factory() and core service resets: type_id.create() follows the overrides known to the current factory and then instantiates the class registered last under the type name it ends at, not necessarily the one that type_id was made for: the type_ids of two classes with the same name all create the later class. It raises KeyError if no class is registered under the name of the type_id or of the override; an override by an object type for a component type is fatal, one by a component type for an object type gives None.", "quantifier": "all histories of registrations, overrides and creations", "why_tests_cant": "Depends on every registration made anywhere.", "anchors": ["src/uvm/base/uvm_registry.py:69-81", "src/uvm/base/uvm_registry.py:90-103", "src/uvm/base/uvm_registry.py:118-180", "src/uvm/base/uvm_registry.py:227-262", "src/uvm/base/uvm_registry.py:274-323", "src/uvm/base/uvm_factory.py:496-514", "src/uvm/base/uvm_factory.py:555-571"]}
{"id": "C158", "title": "Creation by name, replaced factories and resets", "statement": "Without overrides, creation by type name uses the first type registered under that name with the current factory, whether component or object; if it is of the other kind nothing is created although the type_id works. A factory put in place by set_factory() does not know any type registered before, so creation by name finds none of them, although type_id.create() works. After UVMCoreService.reset() create() and both overrides of a type_id raise KeyError until a class of its kind is registered again under its name, and all overrides are gone.", "quantifier": "all histories of registrations, overrides, factories and resets", "why_tests_cant": "Depends on the order of all registrations.", "anchors": ["src/uvm/base/uvm_registry.py:83-88", "src/uvm/base/uvm_registry.py:118-130", "src/uvm/base/uvm_registry.py:243-248", "src/uvm/base/uvm_factory.py:158-201", "src/uvm/base/uvm_factory.py:470-494", "src/uvm/base/uvm_factory.py:526-553", "src/uvm/base/uvm_coreservice.py:41-92"]}
{"id": "C159", "title": "Where an instance override applies", "statement": "If set_inst_override(T, path, parent) is the only override of a type whose names are unique, the path made of parent.get_full_name(), a dot and path (or either alone) having no special characters: create(name, parent, contxt) instantiates T if and only if the path of the new object (contxt or the full name of the parent, a dot, name) is not empty and contains the path of the override anywhere, so also in siblings whose names begin alike and in everything below; otherwise it instantiates the original class. A path given relative to the root, whose full name is empty, begins with a dot and so does not apply at the top level.", "quantifier": "all histories, paths, parents and names", "why_tests_cant": "Arbitrary path strings.", "anchors": ["src/uvm/base/uvm_registry.py:198-228", "src/uvm/base/uvm_registry.py:341-371", "src/uvm/base/uvm_factory.py:516-524", "src/uvm/base/uvm_factory.py:653-718"]}
{"id": "C160", "title": "No lost wake-ups in a sequencer", "statement": "However requests, grants, driver calls, item_done(), ending sequences and stop_sequences() interleave: a sequence whose request has been chosen is never left asleep: its wait_for_grant() returns as soon as it runs. If is_relevant() only ever returns 0 or 1, nobody asks for a lock and arbitration is FIFO, then a driver inside get_next_item(), peek() or get() sleeps only while no request is pending, and as soon as it runs with a pending relevant request it chooses one. A sequence whose is_relevant() returns any other value can leave the driver asleep with the request pending. When a lock request is at the front, the driver raises as soon as it looks for a request.", "quantifier": "all interleavings of any number of sequences and a driver", "why_tests_cant": "The waits use one shared event and compare sizes seen earlier with current ones; a lost wake-up needs a particular interleaving.", "anchors": ["src/uvm/seq/uvm_sequencer_base.py:742-762", "src/uvm/seq/uvm_sequencer_base.py:898-915", "src/uvm/seq/uvm_sequencer_base.py:1073-1117", "src/uvm/seq/uvm_sequencer.py:78-231", "src/uvm/base/sv.py:571-580"]}
{"id": "C161", "title": "Irrelevant requests make the driver raise", "statement": "Without locks, whatever happened before: when get_next_item(), peek() or get() looks for a request while some are pending and is_relevant() of all their sequences is 0, the call raises instead of waiting until one becomes relevant; try_next_item() returns no item. One relevant request among the pending ones is enough for the call to go on.", "quantifier": "all histories and sets of pending requests", "why_tests_cant": "Depends on what is pending at the moment the driver looks.", "anchors": ["src/uvm/seq/uvm_sequencer_base.py:1073-1174", "src/uvm/seq/uvm_sequencer.py:78-231", "src/uvm/base/sv.py:295-310"]}
{"id": "C162", "title": "stop_sequences()", "statement": "stop_sequences() raises and changes nothing while a sequence that was started or has requested on the sequencer has not ended. If it returns while the driver is in no call, then get_next_item() never chooses a request again, whatever requests are made, until the driver calls peek(), get(), try_next_item() or item_done(). Each of these ends it: peek(), get() and try_next_item() look for a request at once, and after an item_done() (which reports a fatal error, nothing being there) get_next_item() looks for one again.", "quantifier": "all histories before and after the call", "why_tests_cant": "The effect shows only in calls arbitrarily long after stop_sequences().", "anchors": ["src/uvm/seq/uvm_sequencer_base.py:565-569", "src/uvm/seq/uvm_sequencer.py:78-119"]}
{"id": "C163", "title": "Register writes without parent stay registered with the bus sequencer", "statement": "However register accesses of several processes interleave: the sequence that write() or read() of a register makes when it is given no parent, a new one for each access, is known to the bus sequencer from its first transfer on; a read removes it when it returns, a write never does, nor does an access that raises. So after one such write the sequencer is never again without sequences.", "quantifier": "all interleavings of any number of processes, transfers and responses", "why_tests_cant": "The number of sequences left grows with the length of the test.", "anchors": ["src/uvm/reg/uvm_reg_map.py:1614-1694", "src/uvm/seq/uvm_sequencer_base.py:937-986", "src/uvm/seq/uvm_sequencer_base.py:1023-1037"]}
{"id": "C164", "title": "Adapters with provides_responses never complete an access", "statement": "With adapter.provides_responses set, in every interleaving: no write() or read() of a register through the map ever returns; each makes at most one bus transfer, whatever the width of the register. The call raises if a response for its sequence is queued after the transfer (always so if the driver answers with a response and the sequence is registered with a usable response queue), and waits for ever if the driver sends none. Each call that raises takes exactly one queued response of its sequence. The register stays locked: it can be accessed only once, and once more after each reset() of it.", "quantifier": "all interleavings, register widths and drivers", "why_tests_cant": "Hanging and raising depend on when responses arrive.", "anchors": ["src/uvm/reg/uvm_reg_map.py:1431-1440", "src/uvm/reg/uvm_reg_map.py:1580-1588", "src/uvm/seq/uvm_sequence_base.py:1253-1271", "src/uvm/reg/uvm_reg.py:852-965", "src/uvm/reg/uvm_reg.py:1252-1276"]}
{"id": "C165", "title": "Status of an access and responses nobody asked for", "statement": "With any other adapter: an access of n bus words returns NOT_OK at the first failing transfer or OK after n transfers, whatever other processes, responses and resets do meanwhile. If the driver answers with responses although the adapter does not take them, they pile up in the response queue of the parent sequence: the first eight stay there and every later one is reported as an overflow error, unless the user takes responses, changes the queue settings or ends the sequence.", "quantifier": "all interleavings, numbers of words and answers", "why_tests_cant": "The ninth response comes arbitrarily late.", "anchors": ["src/uvm/reg/uvm_reg_map.py:1317-1611", "src/uvm/seq/uvm_sequence_base.py:1228-1240", "src/uvm/seq/uvm_sequencer_param_base.py:294-324"]}
{"id": "C166", "title": "Full HDL paths of registers", "statement": "The full HDL paths of a block are exactly the non-empty paths made of one path for every block from the top down (or from the nearest block with a root path), empty ones left out; those of a register are its groups of slices, each below every path of its block, for the default abstraction of the nearest block that has one. One error is reported exactly if the register or a block on the way has no path for the abstraction. add_hdl_path_slice adds to the last group unless the slice is marked as first, and leaves other abstractions alone. This holds if no block has an empty path beside others: in the top block such a path is lost.", "quantifier": "all hierarchies, numbers of paths, abstractions and orders of adding slices", "why_tests_cant": "The number of paths is the product of the choices at every level.", "anchors": ["src/uvm/reg/uvm_reg_block.py:1232-1301", "src/uvm/reg/uvm_reg.py:1930-2061"]}
{"id": "C167", "title": "Back door writes", "statement": "write() through the back door of a register with whole-register paths that all hold the same value leaves in every signal of the register, bit by bit, what a write with the rights of the register's default map would leave there (a write-one-to-clear bit is cleared by a one, a read-only bit stays), changes no other signal, and the mirror is that value. If the signals differ an error is reported, the status is NOT_OK and neither the design nor the mirror changes.", "quantifier": "all registers, values, numbers of paths and signal hierarchies", "why_tests_cant": "Depends on every combination of policies, old and new values.", "anchors": ["src/uvm/reg/uvm_reg.py:1405-1487", "src/uvm/reg/uvm_reg.py:2080-2174", "src/uvm/dpi/uvm_hdl.py:18-72"]}
{"id": "C168", "title": "Back door reads", "statement": "read() through the back door returns the value of the signals with the bits of write-only fields 0, clears or sets in every signal the fields that reading clears or sets, changes no other signal, and makes the value returned the mirrored and desired value of every field; an error is reported exactly if checking is on and the value differs from the desired one in a field that is compared or outside of the fields. If the signals differ an error is reported, the status is NOT_OK and nothing changes. So the mirror is not what the design holds if there are fields that reading clears or sets, or write-only ones.", "quantifier": "all registers, values, numbers of paths and signal hierarchies", "why_tests_cant": "Depends on every combination of policies and values.", "anchors": ["src/uvm/reg/uvm_reg.py:1631-1687", "src/uvm/reg/uvm_reg.py:1339-1370", "src/uvm/reg/uvm_reg.py:2116-2174"]}
{"id": "C169", "title": "Back door accesses that cannot work", "statement": "A back door access raises an exception if the register is in a register file, if its first path has a slice with a position, or leads to a scope; after an access that raised, every further access to the register, by either door, waits for ever. A register without a path for the default abstraction is accessed through the front door. A register with a path in a block without one is neither written nor read, but the status is OK and the mirror changes (to 0 by a read). Names in a path that the design does not have are passed over.", "quantifier": "all registers, designs and sequences of later calls", "why_tests_cant": "The hang concerns every later access.", "anchors": ["src/uvm/reg/uvm_reg.py:1293-1303", "src/uvm/reg/uvm_reg.py:852-965", "src/uvm/reg/uvm_reg.py:1959-2061", "src/uvm/reg/uvm_reg.py:2080-2174", "src/uvm/dpi/uvm_hdl.py:66-72"]}
{"id": "C170", "title": "The register access test", "statement": "Registers with a field of unknown policy through some map, or with only read-only fields through some map, are left out. No false alarms: a design that implements the policies of the fields passes, through any number of maps, if all fields are readable. For registers with read/write fields and any design, the test passes if and only if the complement of the value, written through the front door, is then in the signal, and the value, put into the signal by the back door, is read through the front door, both with status OK; so a bit stuck, on the way in, at what the register holds passes. A register with a write-only field that does not hold all ones fails, whatever the design does.", "quantifier": "all designs, registers, values and maps", "why_tests_cant": "Ranges over all designs.", "anchors": ["src/uvm/reg/sequences/uvm_reg_access_seq.py:73-170", "src/uvm/reg/uvm_reg.py:1065-1146", "src/uvm/reg/uvm_reg.py:1339-1370"]}
{"id": "C171", "title": "Report settings of a component", "statement": "A component has exactly the report settings (verbosities, actions, files, severities) that the following calls, in order, would give a fresh report object: its parent's verbosity level when it was created, the settings of the command line for it, and every set_report_* call made on it, and every set_report_*_hier call made on it or on a component above it, since it was created. No such call on any component changes anything else, and each of them ends. The severity overrides have no _hier version.", "quantifier": "all hierarchies and all sequences of creations and settings", "why_tests_cant": "Depends on the whole history and on when each component was created.", "anchors": ["src/uvm/base/uvm_component.py:1601-1713", "src/uvm/base/uvm_component.py:264-281"]}
{"id": "C172", "title": "Verbosity set for a part of the hierarchy", "statement": "After set_report_verbosity_level_hier(v) on a component, it, all components below it, and all components created below it later, have level v for every message whose id has no setting of its own, until another general level is set; provided nothing is set for the empty id: a verbosity set for the empty id becomes the general level of every component created directly below.", "quantifier": "all hierarchies and histories", "why_tests_cant": "Components created later have to get the level through any number of parents.", "anchors": ["src/uvm/base/uvm_component.py:1699-1713", "src/uvm/base/uvm_component.py:280"]}
{"id": "C173", "title": "Domain and phase implementations of a component", "statement": "The domain of a component is the one last given to it by set_domain on it, or with hier=True on a component above it, since it was created, otherwise the one its parent had when it was created (uvm for uvm_top). In a phase of another domain than its own and the common one it executes nothing, otherwise the implementation last given to it by set_phase_imp on it, or with a true hier on a component above it, since it was created, otherwise the phase's own. set_domain with hier=1 instead of True does not reach the children; implementations, unlike domains, are not inherited by components created later.", "quantifier": "all hierarchies and histories", "why_tests_cant": "Depends on the whole history and on when each component was created.", "anchors": ["src/uvm/base/uvm_component.py:970-1066", "src/uvm/base/uvm_topdown_phase.py:84-95", "src/uvm/base/uvm_bottomup_phase.py:84-93", "src/uvm/base/uvm_task_phase.py:139-158"]}
{"id": "C174", "title": "pre_abort hooks", "statement": "When die() ends the simulation, pre_abort() of every component is called exactly once, that of a component after those of all components below it, and those of (and below) an older sibling before those of a younger one.", "quantifier": "all hierarchies", "why_tests_cant": "Order and completeness over hierarchies of any shape.", "anchors": ["src/uvm/base/uvm_component.py:1715-1739", "src/uvm/base/uvm_root.py:340-358"]}
{"id": "C175", "title": "Hooks and callbacks of a register write", "statement": "When all hooks and callbacks are written as their base classes declare them and none raises, write() through a map runs: for each field its pre_write and the pre_write of its callbacks, then the register's pre_write; then, if the status is not UVM_IS_OK, nothing more; else the bus, the post_predict of the fields' callbacks if the map predicts, the register's post_write and the post_write of every field. In place of the register's own callbacks those of its last field run (before and after the bus); the register's own run only if it has no fields; the fields' post_write callbacks do not run. Disabling a callback with callback_mode has no effect on any of this. A write that did not reach the bus leaves the mirror as it was. The lock of the register is released exactly if the access does not raise.", "quantifier": "all registers, hooks, callbacks, buses and values", "why_tests_cant": "Depends on every combination of hooks, callbacks and their effects.", "anchors": ["src/uvm/reg/uvm_reg.py:1389-1552", "src/uvm/reg/uvm_reg.py:852-915", "src/uvm/base/uvm_callback.py:950-985", "src/uvm/base/uvm_callback.py:1027-1065"]}
{"id": "C176", "title": "Value of a register write", "statement": "The value write() puts on the bus has, at the place of each field, what the pre_write of the field and of its callbacks make of the field's part of the value given, each getting what the one before left, and the bits given elsewhere, then changed by the register's pre_write and the callbacks of the last field; provided no field is given a value wider than itself, which would end up in other fields. Without code that changes it, the value given modulo the size of the register is written. The status returned is what the code run after the bus makes of that of the bus.", "quantifier": "all registers, hooks, callbacks and values", "why_tests_cant": "All fields, values and effects of user code.", "anchors": ["src/uvm/reg/uvm_reg.py:1416-1460", "src/uvm/reg/uvm_reg.py:1520-1552"]}
{"id": "C177", "title": "Hooks, callbacks and value of a register read", "statement": "When all hooks and callbacks are written as their base classes declare them and none raises, read() through a map runs for each field its pre_read and those of its callbacks, then the register's pre_read but none of its pre_read callbacks; then, if the status is not UVM_IS_OK, nothing more; else the bus, the post_predict of the callbacks of the fields that can be read if the map predicts, then post_read of the callbacks of the register and its own, and for each field those of its callbacks and its own. A read that reached the bus returns the value of the bus, whatever value post_read stores, and the status post_read leaves.", "quantifier": "all registers, hooks, callbacks and buses", "why_tests_cant": "All combinations of hooks, callbacks and their effects.", "anchors": ["src/uvm/reg/uvm_reg.py:1579-1757", "src/uvm/reg/uvm_reg.py:1207-1249"]}
{"id": "C178", "title": "Callbacks of a prediction", "statement": "The fields have after a prediction the values they would have without callbacks (C30): post_predict cannot change them. Each callback of each field predicted is told once the mirrored value before and after. If a callback has no post_predict (none is inherited), a predicting write or read raises AttributeError after the bus access: its field and all later ones keep their mirrored values, no post_write or post_read runs, and the register stays locked.", "quantifier": "all registers, callbacks, values and kinds", "why_tests_cant": "All combinations of fields and callbacks.", "anchors": ["src/uvm/reg/uvm_reg_field.py:1253-1317", "src/uvm/reg/uvm_reg.py:1760-1779", "src/uvm/reg/uvm_reg_cbs.py:240-255"]}
{"id": "C179", "title": "Read-only and write-only callbacks", "statement": "After UVMRegReadOnlyCbs.add(r) or UVMRegWriteOnlyCbs.add(r) on a register without other hooks and callbacks, every write still puts the value given on the bus and every read still reads the bus. If the map does not predict, they return the status and value of the bus; if it does, they raise AttributeError (the read if the first field can be read) and the register stays locked.", "quantifier": "all registers with fields, values and buses", "why_tests_cant": "All registers and maps.", "anchors": ["src/uvm/reg/uvm_reg_cbs.py:403-563", "src/uvm/reg/uvm_reg.py:1389-1757"]}
{"id": "C180", "title": "The tree of address maps", "statement": "add_submap succeeds exactly for a map that has no parent map yet and whose block is properly below the block of the map it is called on; otherwise nothing changes (uvm_error if there is a parent map; AttributeError, while the message is put together, if the block is not below, including a map of the same block). So every map has at most one parent map, no map is below itself, every map is under exactly one map without a parent, and no walk through the maps runs for ever. get_submaps() gives every map below once, at any depth; get_registers() gives a register as often as there are maps at or below that it was added to.", "quantifier": "all block hierarchies, maps and sequences of calls", "why_tests_cant": "Depth and order of the calls are unbounded.", "anchors": ["src/uvm/reg/uvm_reg_map.py:434-506", "src/uvm/reg/uvm_reg_map.py:614-638", "src/uvm/reg/uvm_reg_map.py:775-789", "src/uvm/reg/uvm_reg_map.py:934-983"]}
{"id": "C181", "title": "The map a register is accessed through", "statement": "is_in_map(m) holds exactly if the register was added to m or to a map below m, and stays so. get_local_map(m) is m if the register was added to it, otherwise the first of the maps it was added to that is below m, otherwise None. Without a map it is the only map of the register; with several, the one found the same way from the default map of the register's block; and if that finds none, the first map it was added to.", "quantifier": "all block hierarchies, maps and sequences of calls", "why_tests_cant": "The choice depends on the order in which maps and submaps were added.", "anchors": ["src/uvm/reg/uvm_reg.py:327-346", "src/uvm/reg/uvm_reg.py:362-425"]}
{"id": "C182", "title": "Outcome of choosing the map of an access", "statement": "A front-door access through a map that is not the register's, nor above one of its maps, ends with UVM_NOT_OK; without a map, for a register in no map at all, it ends with AttributeError. Otherwise it goes through the map chosen, with the rights, unmapped flag and front door given to that map's add_reg: until an initialising call has come after that add_reg, uvm_fatal; afterwards UVM_NOT_OK if the register is unmapped there and has no front door, and else the access is made. get_rights gives the rights of that add_reg.", "quantifier": "all block hierarchies, maps and sequences of calls", "why_tests_cant": "Which add_reg counts and whether it came before the initialisation depends on the whole history.", "anchors": ["src/uvm/reg/uvm_reg.py:433-460", "src/uvm/reg/uvm_reg.py:1280-1330", "src/uvm/reg/uvm_reg_map.py:322-376", "src/uvm/reg/uvm_reg_map.py:1037-1056"]}
{"id": "C183", "title": "Initialisation of address maps", "statement": "lock_model() of a top block not locked before makes every register that is in a map at or below one of the block's maps usable, for good. A register added afterwards (which is not refused) stays unusable, uvm_fatal, until add_submap below a map of a locked block in the same tree, or such a lock, comes; calling lock_model() again does nothing. Maps whose top map belongs to a block with a parent are never initialised by lock_model(): unless a submap is added below a map of a locked block, every access through them is fatal.", "quantifier": "all block hierarchies, maps and sequences of calls", "why_tests_cant": "Depends on the order of calls over the whole hierarchy.", "anchors": ["src/uvm/reg/uvm_reg_map.py:98-222", "src/uvm/reg/uvm_reg_map.py:434-506", "src/uvm/reg/uvm_reg_block.py:294-350", "src/uvm/reg/uvm_reg_block.py:1352-1354"]}
{"id": "C184", "title": "Settings of address maps", "statement": "An access uses the sequencer and the adapter of the last set_sequencer on the top map, and predicts according to the last set_auto_predict on the top map, however those calls and add_submap were ordered; none and no prediction without such calls, whatever was set on maps below. A map checks reads according to the last set_check_on_read that was called on it or on a map above it at that time; a map made or put below later is not reached and checks.", "quantifier": "all block hierarchies, maps and sequences of calls", "why_tests_cant": "Depends on the order of settings and of add_submap.", "anchors": ["src/uvm/reg/uvm_reg_map.py:510-534", "src/uvm/reg/uvm_reg_map.py:897-931", "src/uvm/reg/uvm_reg_map.py:1241-1314"]}
{"id": "C185", "title": "Which sequencer an item goes to", "statement": "start_item/finish_item send an item to the sequencer given, else to the one the item has, else to the one of the sequence, and to none (uvm_fatal) if there is no such; the item then has that sequencer. uvm_do and its variants do the same for an item, with the randomisation in between, and ignore the sequencer given to uvm_do_on. So an item that has a sequencer keeps going to that one, whichever sequence sends it, until a call names another.", "quantifier": "all sequences, items and histories of calls (item not itself an ancestor of the sequence)", "why_tests_cant": "The sequencer depends on every earlier call on the item.", "anchors": ["src/uvm/seq/uvm_sequence_item.py:118-136", "src/uvm/seq/uvm_sequence_base.py:981-1061", "src/uvm/macros/uvm_sequence_defines.py:57-279"]}
{"id": "C186", "title": "The depth of a sequence item", "statement": "Right after set_item_context(x, p), get_depth() of x is one more than that of p. If no parent or depth is set by hand and only objects that are nobody's parent get another parent, get_depth() of every object is one more than the number of its ancestors and no call ends in RecursionError. Otherwise depths computed before the parents moved stay as they are.", "quantifier": "all histories of calls", "why_tests_cant": "Depths are kept, so the answer depends on the order of the calls.", "anchors": ["src/uvm/seq/uvm_sequence_item.py:118-136", "src/uvm/seq/uvm_sequence_item.py:235-256"]}
{"id": "C187", "title": "Names along the parent sequences", "statement": "get_full_name() is the full name of the sequencer of the topmost ancestor (if it has one) and the names of the ancestors from the top and of the object itself, joined by '.', an empty name shown as _item; get_sequence_path() is the names joined alone; get_root_sequence() is the topmost ancestor, None for an object without a parent. The walks end exactly if going up the parents ends, and then after fewer steps than there are objects; they always do if only objects that are nobody's parent get another parent. Two sequences started with each other as parent make them run for ever, without an error at start.", "quantifier": "all states and all histories of calls", "why_tests_cant": "Depth of nesting is unbounded.", "anchors": ["src/uvm/seq/uvm_sequence_item.py:271-353"]}
{"id": "C188", "title": "Priorities and parents of started sequences", "statement": "start() with a priority of 0 or more uses it; with -1 it takes the priority of the parent given, and 100 if none is given; below -1 it is fatal. The sequencer is the one given, else that of the parent given, else that of the parent from before. start() without a parent keeps the parent from before. If no priority is ever given and every parent was started before, all sequences and all requests of their items have priority 100. (A parent never started has priority -1, and so has every item of execute_item.)", "quantifier": "all histories of calls", "why_tests_cant": "Priority depends on the history of the parents.", "anchors": ["src/uvm/seq/uvm_sequence_base.py:296-342", "src/uvm/seq/uvm_sequence_base.py:1000-1034", "src/uvm/seq/uvm_sequencer_base.py:185-207", "src/uvm/seq/uvm_sequence_item.py:118-136"]}
{"id": "C189", "title": "Full names and schedules of phases", "statement": "get_full_name() of a phase in a schedule is the name of its domain, the names of the schedules around it from the outside in, and its own name, joined by '.'; a domain shows its own name. get_schedule() is the innermost schedule (a schedule is its own; a phase right in a domain has none) and get_domain() the domain. get_schedule_name() joins the names of the schedules by '.'; with hier set both give only the outermost. A phase that is in no domain and no schedule has no schedule. If names are not empty and have no '.', phases with equal full names lie in domains and schedules of equal names.", "quantifier": "all graphs, all depths of nested schedules", "why_tests_cant": "Nesting is unbounded.", "anchors": ["src/uvm/base/uvm_phase.py:588-668"]}
{"id": "C190", "title": "find_by_name", "statement": "A phase found by find_by_name(name, stay_in_scope) has the name and is reached by predecessors, or by successors if no predecessor has the name, in the scope of the start if stay_in_scope. If None is returned no phase reached that way has the name. The search ends in every graph without cycles.", "quantifier": "all phase graphs", "why_tests_cant": "Every graph users may build with add().", "anchors": ["src/uvm/base/uvm_phase.py:336-366", "src/uvm/base/uvm_phase.py:1002-1085"]}
{"id": "C191", "title": "find", "statement": "find(phase) returns the phase itself exactly if it is asked for itself; a phase it finds is the one asked for (or a node of the IMP asked for) and is reached by predecessors or successors, in the scope of the start if stay_in_scope. It returns None only if no such phase is reached, provided no phase on the way has two neighbours in scope; where there are two, the search may overlook a phase that find_by_name finds.", "quantifier": "all phase graphs", "why_tests_cant": "Every graph users may build with add().", "anchors": ["src/uvm/base/uvm_phase.py:336-366", "src/uvm/base/uvm_phase.py:1002-1085"]}
{"id": "C192", "title": "wait_for_state", "statement": "wait_for_state(state, op) returns only in a state that meets the condition. A process that waits when a state is set returns when it next runs if the condition still holds. A call made when no set_state has happened since the last waiter was released waits for the next set_state, even if the phase is already in the state asked for. For single-bit states UVM_EQ and UVM_NE mean equal and not equal.", "quantifier": "all interleavings of callers, state changes and scheduling", "why_tests_cant": "Depends on the interleaving.", "anchors": ["src/uvm/base/uvm_phase.py:896-926"]}
{"id": "C193", "title": "Domains given to components have the run-time phases", "statement": "After any sequence of creating domains and giving them to components (set_domain), each domain given has exactly one schedule uvm_sched with the twelve run-time phases in order, starting after start_of_simulation and ending before extract, in parallel to run and to the other domains; extract has the ends of all of them and run as predecessors. Each run-time phase occurs once in a domain. Giving a domain again changes nothing. A domain never given has no phases. (A domain named 'uvm_sched' gets no phases; giving the common domain itself appends run-time phases after final.)", "quantifier": "all sequences of domain creations and set_domain calls on user domains and uvm", "why_tests_cant": "The graph after each call depends on all calls before.", "anchors": ["src/uvm/base/uvm_domain.py:94-203", "src/uvm/base/uvm_component.py:978-1046", "src/uvm/base/uvm_phase.py:434-562"]}
{"id": "C194", "title": "Responses find the sequence and run that sent the request", "statement": "With any number of sequencers and sequences, put_response on a sequencer is an error exactly for an item whose ids were copied (set_id_info) from no item sent. Otherwise the response goes to the sequence that sent the request through this sequencer, as long as that has not left the sequencer since; in every other case to nobody: never to another sequence, nor to a later run of the same one. Two items have equal sequence ids exactly if the same sequence sent them through the same sequencer in the same run. (A sequence leaves only the sequencer it was started on; a start() made before the earlier start() call has come back loses its id when that comes back.)", "quantifier": "all sequences of starts, requests, sends, ends, id copies and responses", "why_tests_cant": "Depends on the whole history of all sequences and sequencers.", "anchors": ["src/uvm/seq/uvm_sequencer_base.py:1023-1071", "src/uvm/seq/uvm_sequencer_base.py:407", "src/uvm/seq/uvm_sequencer_base.py:937-986", "src/uvm/seq/uvm_sequence_base.py:296-358", "src/uvm/seq/uvm_sequence_base.py:1287-1317", "src/uvm/seq/uvm_sequencer_param_base.py:92-133", "src/uvm/seq/uvm_sequencer_param_base.py:294-324", "src/uvm/seq/uvm_sequence_item.py:162-177"]}
{"id": "C195", "title": "Transaction ids", "statement": "If no transaction id is set by hand and ids are copied only to items that are not sent, the items a sequence is the first to send have transaction ids 1, 2, 3, ... in the order of sending, over all its runs and sequencers, so no two of them share an id. Sending an item that has an id keeps it. (An id set by hand is not skipped.) Each grant serves for one send_request: without an unused one send_request is a fatal error and no item changes. Starting a sequence that runs is a fatal error.", "quantifier": "all histories", "why_tests_cant": "Depends on the whole history.", "anchors": ["src/uvm/seq/uvm_sequencer_param_base.py:92-133", "src/uvm/seq/uvm_sequence_item.py:162-177"]}
{"id": "C196", "title": "wait(cond, ev) loses no wakeup", "statement": "A process in wait(cond, ev) comes back only when its condition holds; a call returns at once exactly if it holds. If whatever makes the condition true also calls ev.set(), the process comes back whenever it runs while the condition holds, whatever other processes with other conditions wait for the same event, clear it, or run in between. After ev.set() every process that was waiting comes back at its next run exactly if its condition holds then.", "quantifier": "all conditions, state changes, numbers of processes and schedules", "why_tests_cant": "Depends on the interleaving.", "anchors": ["src/uvm/base/sv.py:571-580"]}
{"id": "C197", "title": "wait_modified of a resource", "statement": "Which process returns from wait_modified, and when, is what one flag 'changed since the last return' says: each change not yet taken lets exactly the next process return that calls wait_modified or is run while waiting, and no other before the next change. There are never more returns than changes, and the value has changed between any two returns. A write of an equal value, or to a read-only resource, is no change and leaves the value. (One write releases only one of several waiting processes; several writes before a waiting process runs count as one.)", "quantifier": "all values, processes and schedules", "why_tests_cant": "Depends on the interleaving of writers and waiters.", "anchors": ["src/uvm/base/uvm_resource.py:277-319", "src/uvm/base/uvm_resource.py:789-825", "src/uvm/base/sv.py:571-580"]}
{"id": "C198", "title": "Hooks and callbacks of memory accesses", "statement": "In every write and burst write of a memory that starts below the size, by any path (through the built-in front door of an unmapped memory only with a map given), with hooks and callbacks that are coroutines and do not raise, the pre_write hook runs first, then pre_write of the callbacks in their order, each seeing the offset, values and status the one before left; if the status is then not OK nothing moves, nothing else runs and that status is returned. Otherwise the offset and values as left are moved exactly once, then the post_write hook and the callbacks run in order on what the move left, and the status they leave is returned; an exception of the move passes. The caller's list is changed in place by such code as long as rw.value has not been replaced by another list, and not afterwards. For a memory that is not writable a write by the back door moves nothing and runs the rest with status OK. Reads go the same way if post_read of the callbacks is a coroutine (of the callbacks before the move only those whose pre_read is no coroutine), and return the first value and the status as left by the last post_read. Limit: the check of the offset and of the burst is made before the hooks, a hook that changes the offset is not checked.", "quantifier": "all hooks, callbacks, data movers, paths, offsets and values", "why_tests_cant": "Any code in the hooks and callbacks, any order of them.", "anchors": ["src/uvm/reg/uvm_mem.py:624-780", "src/uvm/reg/uvm_mem.py:968-1165", "src/uvm/reg/uvm_reg_cbs.py:53-237"]}
{"id": "C199", "title": "Callbacks of memory reads", "statement": "A callback of a memory whose post_read is a plain function, as the one inherited from UVMRegCbs, makes every read that is not refused before the move raise TypeError, after the device was read once and the post_read hook and the callbacks up to and including that one ran. A callback whose pre_read is a coroutine, as the inherited one, never runs before a read or burst read.", "quantifier": "all memories, callback lists, data movers, paths and offsets", "why_tests_cant": "All positions of the callback in any list.", "anchors": ["src/uvm/reg/uvm_mem.py:1071-1133", "src/uvm/reg/uvm_reg_cbs.py:53-237"]}
{"id": "C200", "title": "User-defined front doors", "statement": "Every access of a memory moves data at most once: through the user-defined front door of the map if there is one, else through the bus, unless it goes to the back door. With a user-defined front door no error is reported for an unmapped memory or a burst, of any length, that starts below the size. The front door runs on the sequencer last assigned to it, or else on the one the root map of the access had when the front door was first started on one; once started on a sequencer it stays there, through whatever map it is reached and whatever sequencers the maps get, until the user assigns another. Without one, an access by the front door to an unmapped memory reports an error and goes on when a map is given, and raises AttributeError before any hook runs when none is given.", "quantifier": "all memories, hooks, paths, offsets, values; all histories of accesses, set_sequencer and assignments", "why_tests_cant": "Depends on the history of accesses.", "anchors": ["src/uvm/reg/uvm_mem.py:926-962", "src/uvm/reg/uvm_mem.py:998-1007", "src/uvm/reg/uvm_mem.py:1099-1108", "src/uvm/reg/uvm_reg.py:1490-1505", "src/uvm/reg/uvm_reg.py:1690-1707"]}
{"id": "C201", "title": "What burst_read of a memory returns", "statement": "If hooks, callbacks and the data mover change rw.value only in place, burst_read returns no values when the list is empty at the end and otherwise never returns; if one of them puts another list in its place, it returns what was left in the old list followed by the values of the last one. If all of them also keep its length, as the built-in front door does, no burst_read that returns gives any value.", "quantifier": "all hooks, callbacks, data movers, paths and offsets", "why_tests_cant": "Non-termination; any code in the hooks.", "anchors": ["src/uvm/reg/uvm_mem.py:759-780", "src/uvm/reg/uvm_mem.py:1071-1165"]}
{"id": "C202", "title": "Forward path of TLM2 sockets", "statement": "Sockets connected by any calls of connect that make no loop are always elaborated, in any order. Then b_transport of a blocking and nb_transport_fw of a non-blocking socket (with a delay) calls a target that the socket leads to through connected sockets of its family, whatever passthrough sockets lie between; it raises exactly if there is none. Leading to none is reported once as too few connections, to more than one once as too many.", "quantifier": "all sockets with different full names, all sequences of connect, all elaboration orders", "why_tests_cant": "Any depth and shape of the connection graph.", "anchors": ["src/uvm/tlm2/uvm_tlm2_sockets.py:76-346", "src/uvm/tlm2/uvm_tlm2_sockets_base.py:63-167", "src/uvm/tlm2/uvm_tlm2_imps.py:71-156", "src/uvm/base/uvm_port_base.py:328-421", "src/uvm/base/uvm_port_base.py:644-669"]}
{"id": "C203", "title": "Backward path of TLM2 sockets", "statement": "nb_transport_bw of a non-blocking target or passthrough socket calls an initiator that was connected by its own connect with that very socket, and raises exactly if there is none; none is reported as too few, more than one as too many. If elaboration reports nothing, every non-blocking target and the one initiator connected with it call each other. Limit: connect of the passthrough sockets does not connect the backward path, so a target that is only connected through passthrough sockets always has too few reported and its nb_transport_bw raises, although the forward path works.", "quantifier": "all sockets with different full names, all sequences of connect, all elaboration orders", "why_tests_cant": "Any depth and shape of the connection graph.", "anchors": ["src/uvm/tlm2/uvm_tlm2_sockets.py:158-195", "src/uvm/tlm2/uvm_tlm2_sockets.py:217-236", "src/uvm/tlm2/uvm_tlm2_sockets.py:299-346", "src/uvm/tlm2/uvm_tlm2_sockets_base.py:86-145", "src/uvm/tlm2/uvm_tlm2_imps.py:119-128"]}
{"id": "C204", "title": "Calls and connections a TLM2 socket accepts", "statement": "Blocking sockets have b_transport only, non-blocking ones nb_transport_fw and, unless they are initiators, nb_transport_bw; a call without a delay never reaches an implementation. connect of an initiator reports a type mismatch exactly for a provider of the other family and for an initiator; another initiator of the same family is connected nevertheless, and every provider that is not reported is connected.", "quantifier": "all sockets, kinds of provider, binding states", "why_tests_cant": "All pairs of kinds.", "anchors": ["src/uvm/tlm2/uvm_tlm2_sockets.py:76-195", "src/uvm/tlm2/uvm_tlm2_sockets_base.py:63-167", "src/uvm/tlm2/uvm_tlm2_imps.py:71-156"]}
{"id": "C205", "title": "A translation sequence does every register access once", "statement": "If one translation sequence serves an upstream register sequencer, then however the accesses and the translation interleave: accesses are transferred on the bus in the order in which the upstream sequencer chose them, each at most once, with the translation sequence as parent (the parent of the access if parent_select is not LOCAL); every access returns at most once, only after its own transfer, with the status of that transfer and with its parent restored; no item is refused. As long as no transfer raises, when nothing can go on any more every access made has returned. Limit: two translation sequences on one upstream sequencer can transfer one access twice and let another return as if successful that never was on the bus, with no report; or the sequencer refuses an item with a fatal error.", "quantifier": "all numbers of accesses, all interleavings, all arbitration choices and bus outcomes", "why_tests_cant": "Unbounded interleavings of accesses with the translation loop.", "anchors": ["src/uvm/reg/uvm_reg_sequence.py:137-204", "src/uvm/reg/uvm_reg_map.py:1636-1649", "src/uvm/reg/uvm_reg_map.py:1680-1688", "src/uvm/seq/uvm_sequencer.py:166-231"]}
{"id": "C206", "title": "A transfer that raises stops the translation sequence", "statement": "If the transfers of an access raise in the only translation sequence of an upstream sequencer, then whatever happens afterwards that access never returns, no access is chosen or transferred any more, and no access made later returns.", "quantifier": "all interleavings before and after", "why_tests_cant": "Non-termination of later accesses.", "anchors": ["src/uvm/reg/uvm_reg_sequence.py:137-204", "src/uvm/seq/uvm_sequencer.py:166-231"]}
{"id": "C207", "title": "The report summary tells what was executed", "statement": "After any history of reports, count settings and queries, get_summary_string lists the four severities first and then every other one used, and every id used, each exactly once in the order of first use, with exactly the number of messages executed with it since it was last set or reset; the quit count line appears exactly if a maximum is set, and 'Quit count reached!' exactly if the count has reached it. get_severity_count, get_id_count and a printout of the server say the same numbers. Without set or reset calls both tables add up to the number of executed messages. Limit: once a catcher exists, each summary is itself counted in the next one.", "quantifier": "all histories of reports, settings, queries and summaries", "why_tests_cant": "Unbounded histories; agreement of three different ways of asking.", "anchors": ["src/uvm/base/uvm_report_server.py:122-171", "src/uvm/base/uvm_report_server.py:252-315", "src/uvm/base/uvm_report_server.py:404-418", "src/uvm/base/uvm_report_server.py:559-599", "src/uvm/base/uvm_report_catcher.py:620-633"]}
{"id": "C208", "title": "get_id_set and get_severity_set hand out each entry once", "statement": "Over all calls of get_id_set on a server no id is handed out twice, and only ids that were used; if the server is not printed in between, the calls up to and including the last one give all ids used so far, in the order of first use; the same holds for get_severity_set. So a call does not give the set of ids, only those not given before. Limit: an id first used between a call and a printout of the server is never handed out.", "quantifier": "all histories", "why_tests_cant": "The position is kept in the table between calls, whatever happens in between.", "anchors": ["src/uvm/base/uvm_report_server.py:346-352", "src/uvm/base/uvm_report_server.py:122-171", "src/uvm/base/uvm_pool.py:127-150"]}
{"id": "C209", "title": "The text of a message tells its parts", "statement": "Two messages of known severity have different texts unless they agree in severity, file name, line (if there is a file), time, reporting object, context, id and body, provided file names contain no '@' or '(', object names no space or '@', contexts no space and ids no ']'; the severity can be told without these conditions. With show_verbosity on, every message that is to be displayed or logged raises an exception and is not counted; other messages are counted. Limit: with a ']' in an id two different messages can have the same text.", "quantifier": "all messages; all histories for show_verbosity", "why_tests_cant": "Injectivity over all pairs of messages.", "anchors": ["src/uvm/base/uvm_report_server.py:19-40", "src/uvm/base/uvm_report_server.py:373-397", "src/uvm/base/uvm_report_server.py:488-556"]}
{"id": "C210", "title": "wait_for of an objection", "statement": "For any number of processes calling wait_for(event, obj) on one objection, in any interleaving with the events: if the event reaches the object after the call, the process returns with its next turn; no call ends in an exception; and if no waiting process was killed and no other one is waiting for the same object at the time of the call, it does not return before such an event. Limits: while another process waits for the object, for whatever event, a call returns at once for an event that came before the call; after a waiting process was killed, this holds for ever.", "quantifier": "all numbers of processes and objects, all interleavings of calls, events, turns and kills", "why_tests_cant": "Lost or stale wake-ups show only in some interleavings.", "anchors": ["src/uvm/base/uvm_objection.py:54-59", "src/uvm/base/uvm_objection.py:765-766", "src/uvm/base/uvm_objection.py:908-959", "src/uvm/base/uvm_objection.py:983-1001"]}
{"id": "C211", "title": "What sscanf reads", "statement": "sv.sscanf(text, format), with conversions %d %h %b %o %s in the format: each conversion in turn passes over the characters it cannot take, takes the longest run it can (after 0x for %h), and also swallows the character that ends the run (a newline at the end of the run is kept in the word). If every conversion finds a word the result is the values of the words, as many as there are conversions; if one finds nothing the result is empty; if a word found is not a numeral of the base, ValueError is raised. A number, one separator and a word read with '%d,%s' give the number and the word. Limits: the sign of a number is lost, %h looks for 0x at even distances only, and an o hides the next character from %o. As a consequence the time-out from the command line given as a number and a word is set to the word.", "quantifier": "all texts and formats (without %f)", "why_tests_cant": "Parsing has to be right for texts of any length.", "anchors": ["src/uvm/base/sv.py:179-222", "src/uvm/base/sv.py:582-611", "src/uvm/base/uvm_root.py:556-591"]}
{"id": "C212", "title": "The verbosity from the command line", "statement": "+UVM_VERBOSITY= decides the verbosity of the root: without such an argument it is UVM_MEDIUM; otherwise the first one counts, and a name (with or without UVM_) gives its level, and a non-zero integer gives that number. 0 gives UVM_MEDIUM although NONE gives 0, a negative number is taken without a message, and any other word makes creating the root raise. Messages are given for a default, for more than one argument (the list shown has one empty entry more), for a positive number and for 0, and for nothing else.", "quantifier": "all command lines", "why_tests_cant": "Needs all words and numbers.", "anchors": ["src/uvm/base/uvm_root.py:780-851"]}
{"id": "C213", "title": "Instance overrides on the command line", "statement": "No override is ever made from the command line. Arguments that start with +uvm_set_inst_override or +UVM_SET_INST_OVERRIDE are handled in order: one whose text after 23 characters is not three comma separated fields is reported as an error; the first one that is three fields makes the build phase of the root raise (the factory has no such method), and the rest is not looked at.", "quantifier": "all command lines", "why_tests_cant": "Needs all argument lists.", "anchors": ["src/uvm/base/uvm_root.py:593-632", "src/uvm/base/uvm_factory.py:411-413"]}
{"id": "C214", "title": "The text of debug_connected_to", "statement": "debug_connected_to(max_level=n) of a port lists every path of connections that starts from it, of at most n steps (any number for -1), each once and depth first in the order the connections were made; a provider reached along two paths is shown twice. The indentation grows by a bar (more connections follow) or a gap with every line and is never taken back, and the list of resolved implementations is printed with the indentation of the end. Without connections there is no heading; for n = 0 or below -1 nothing is reported at all. The call ends if and only if a limit is given or path lengths are bounded: with ports connected in a circle the call without a limit fails.", "quantifier": "all networks of ports, limits and implementation lists", "why_tests_cant": "Networks can have any shape and depth, and circles.", "anchors": ["src/uvm/base/uvm_port_base.py:435-489"]}
{"id": "C215", "title": "The text of debug_provided_to", "statement": "debug_provided_to(max_level=n) lists the paths back from a port in the same way, but with up to n+1 steps, so that it is not the same as debug_connected_to for one limit; a port nothing is connected to is said not to be bound; below -1 nothing is reported. After any calls of connect, a port leads to a provider in k steps by get_connected_to if and only if the provider leads back in k steps by get_provided_to.", "quantifier": "all networks of ports and limits", "why_tests_cant": "Needs all networks.", "anchors": ["src/uvm/base/uvm_port_base.py:498-536", "src/uvm/base/uvm_port_base.py:541-552"]}
{"id": "C216", "title": "What connect connects, and its warnings", "statement": "After any calls of connect, get_connected_to lists the providers of the possible calls made on the port, and get_provided_to the ports they were made from, each in the order in which it was first connected. A call is possible if the two differ, the provider has every method of the port, the port is no implementation and it is not an export connected to a port; otherwise exactly an error is reported and nothing changes. A possible call gives a warning exactly if the port is not an analysis port and the levels are wrong: a port of a component belongs to a port of the parent component, to an export or implementation of a sibling, and an export to an export or implementation of a child; the warning does not prevent the connection.", "quantifier": "all sequences of calls of connect and all component trees", "why_tests_cant": "Needs all sequences of calls.", "anchors": ["src/uvm/base/uvm_port_base.py:328-421", "src/uvm/base/uvm_port_base.py:557-618"]}
{"id": "C217", "title": "poke of a memory and its copies in the design", "statement": "The full HDL paths of a memory for an abstraction are each of its groups of slices below every path of its blocks; one error is reported exactly if the memory or a block up to the root has none. If all paths are those of whole arrays that have the element, poke(status, offset, value) returns OK, the element of every such array holds the value modulo 2 to the width of the memory, and no other element and no signal of the design changes. A back door write of several values writes them, unmasked, to following elements of every array; a slice with a position gets its part of the value, shifted down.", "quantifier": "all designs, hierarchies of blocks, HDL paths, offsets and values", "why_tests_cant": "Quantifies over all designs and paths.", "anchors": ["src/uvm/reg/uvm_mem.py:801-838", "src/uvm/reg/uvm_mem.py:1329-1332", "src/uvm/reg/uvm_mem.py:1370-1398", "src/uvm/reg/uvm_mem.py:1429-1453", "src/uvm/dpi/uvm_hdl.py:18-77"]}
{"id": "C218", "title": "peek of a memory", "statement": "If all paths are those of whole arrays, peek(status, offset, value) gives the element of the first, modulo 2 to the width; the status is OK and no error is reported if all other copies agree up to the width, else the status is NOT_OK with exactly one error. After poke, peek of the offset gives the value modulo 2 to the width, and peek of every other offset gives what it gave before. A back door read of several elements gives them in turn. peek fails if the first path has a slice with a position or an element is not there; poke fails for an element that is not there in the first path, or a slice with a position and without a size.", "quantifier": "all designs, HDL paths, offsets, values and copies", "why_tests_cant": "Quantifies over all designs and values.", "anchors": ["src/uvm/reg/uvm_mem.py:860-897", "src/uvm/reg/uvm_mem.py:1417-1418", "src/uvm/reg/uvm_mem.py:1465-1515", "src/uvm/dpi/uvm_hdl.py:18-77"]}
{"id": "C219", "title": "Back door accesses to memories that do nothing", "statement": "With a user-defined back door, poke changes nothing and peek gives 0, both with status OK. With no HDL path for the abstraction an error is reported, the status is NOT_OK, nothing is written and no value is given. If only the blocks around the memory give no path, poke changes nothing and peek gives 0, with status OK, although an error is reported for a block without a path.", "quantifier": "all designs, hierarchies of blocks, offsets and values", "why_tests_cant": "A test passes with status OK, yet nothing has been accessed.", "anchors": ["src/uvm/reg/uvm_mem.py:801-838", "src/uvm/reg/uvm_mem.py:860-897", "src/uvm/reg/uvm_mem.py:1250-1262", "src/uvm/reg/uvm_mem.py:1370-1398"]}
{"id": "C220", "title": "What the printout of the factory shows", "statement": "After any registrations and overrides by type, by name and of instances, convert2string(all_types) and print_factory give a header; the instance overrides of one type only, the one whose first instance override came last, each path and override once, in the order set; all type overrides, one row for each name, in the order in which the names were first overridden, with what the last override that was not refused produces; and for all_types of 1 or more the number of types registered and those types whose name stands for themselves, in the order of registration, of which without all_types=2 those with 'uvm_' anywhere in the name are left out. A type first overridden by name is never listed again, whatever is set later. Columns are as wide as the longest entry of both tables, and fillers are one character short.", "quantifier": "all sequences of registrations and overrides, all names and values of all_types", "why_tests_cant": "A test compares one printout; it is the order of the calls before it that decides what is missing.", "anchors": ["src/uvm/base/uvm_factory.py:158-201", "src/uvm/base/uvm_factory.py:203-271", "src/uvm/base/uvm_factory.py:274-336", "src/uvm/base/uvm_factory.py:338-409", "src/uvm/base/uvm_factory.py:721-853", "src/uvm/base/uvm_factory.py:855-863"]}
{"id": "C221", "title": "What a display of objections shows", "statement": "display_objections(obj) and convert2string of an objection give the total of the object (the top without one) and nothing else if it is 0. Otherwise the line of the object follows, and then the lines of the objects with a positive total in the order in which they are entered in the objection, from the very first, up to and including the first whose full name does not start with that of the object; each line has the counts of its object, two blanks for every level and the part of the name behind the last dot. For the top these are all objects with objections, the top a second time among them; for another object an unrelated object may be listed, and objects beneath it may be missing.", "quantifier": "all objections, hierarchies, names and counts", "why_tests_cant": "A test with one component that objects shows a plausible table; what is missing depends on the order of raises.", "anchors": ["src/uvm/base/uvm_objection.py:66-82", "src/uvm/base/uvm_objection.py:1028-1043", "src/uvm/base/uvm_objection.py:1063-1126", "src/uvm/base/uvm_objection.py:1130-1142", "src/uvm/base/uvm_pool.py:43-47", "src/uvm/base/uvm_pool.py:140-150"]}
{"id": "C222", "title": "debug_create_by_type tells what is created", "statement": "With overrides set by type and types with different names, debug_create_by_type(requested_type, path) ends and names the type that a request for the type at the path creates afterwards, also if overrides lead in a circle. Its rows are, for one type after another along the overrides followed, all overrides that apply to the type, those of instances first in the order set, each once, and then its type override; exactly the first row of each type is the one followed, all others have the mark 'x' of those ignored.", "quantifier": "all sequences of registrations and overrides by type, all types and paths", "why_tests_cant": "A test compares the dump of one configuration with one create.", "anchors": ["src/uvm/base/uvm_factory.py:653-718", "src/uvm/base/uvm_factory.py:872-901", "src/uvm/base/uvm_factory.py:905-977"]}
{"id": "C223", "title": "Which setting of is_active decides whether an agent is active", "statement": "After build_phase an agent for whose full name no resource named is_active is visible is active. Otherwise get_is_active() is the value of one visible resource: among those that have the same precedence as the first visible one in the table of the name, the last in the table, of whatever type. With uvm_config_db.set and no setting made twice (same context, instance and field) that is the oldest of the applicable settings that are as strong as the newest applicable one. So the agent agrees with uvm_config_db.get when the newest applicable setting is stronger than all the others, in particular when there is only one; it does not in general: in the build phase a setting of the environment made after that of the test above decides, and of two settings of equal strength the older one.", "quantifier": "all pools, all histories of settings, all scopes", "why_tests_cant": "Tests make one setting, where every rule of choice gives the same result.", "anchors": ["src/uvm/comps/uvm_agent.py:45-60", "src/uvm/comps/uvm_agent.py:63-78", "src/uvm/comps/uvm_agent.py:85-93", "src/uvm/base/uvm_resource.py:1172-1221", "src/uvm/base/uvm_resource.py:1261-1291"]}
{"id": "C224", "title": "Which coverage models of a register model are present and on", "statement": "In every history of creating blocks, registers and memories, add_coverage() and set_coverage(): has_coverage(m) is true exactly if every model in m was given at creation or added since; get_coverage(m) exactly if moreover every one is on, that is, the last set_coverage() of the register, memory or block itself or of any block above asked for it when it was present already. set_coverage(m) of a block reaches the block and every block, register and memory beneath and nothing else, changes no presence, and returns what is on in the block now. A model added later stays off until coverage is set again. As long as only non-negative values are given, has_coverage(UVM_CVR_ALL) and get_coverage(UVM_CVR_ALL), the default of a block, are false. sample_values() of a block calls every register beneath, once for each place.", "quantifier": "all block trees, all histories, all sets of models", "why_tests_cant": "A test has one small block tree and one order of calls.", "anchors": ["src/uvm/reg/uvm_reg_block.py:715-779", "src/uvm/reg/uvm_reg_block.py:792-795", "src/uvm/reg/uvm_reg_block.py:838-845", "src/uvm/reg/uvm_reg.py:2266-2359", "src/uvm/reg/uvm_mem.py:1631-1695"]}
{"id": "C225", "title": "The first matching include_coverage decides which coverage models are built", "statement": "In every history of include_coverage() and uses of the resource database that do not write to the resource include_coverage, build_coverage(models) of a register, memory or block yields the models asked for that the first include_coverage whose scope matches its full name includes; later calls, also those for just this register, have no effect on it. If no include_coverage matches, build_coverage raises instead of building none.", "quantifier": "all histories, scopes, names and sets of models", "why_tests_cant": "A test makes one include_coverage call.", "anchors": ["src/uvm/reg/uvm_reg.py:2178-2263", "src/uvm/reg/uvm_reg_block.py:691-712", "src/uvm/reg/uvm_mem.py:1609-1615"]}
{"id": "C226", "title": "Which registers and memories the built-in tests leave out", "statement": "For every history of the resource database: the built-in sequence starts, in a fixed order and each once, those of the five tests (reset, bit bash, register access, memory access, memory walk) whose bit is in the mask and for which none of the names that stop it was set, to whatever value, for a scope matching the model; the shared access bit has no effect. Bit bash, register access and memory access follow the documented rule: a register or memory is tested exactly if neither the model nor its own block nor it itself has NO_REG_TESTS, NO_MEM_TESTS (memories) or the name of the test, and for access tests has a back door; excluding a block in between is without effect. The memory walk does not: NO_MEM_WALK_TEST of a block does not stop it, NO_MEM_ACCESS_TEST of the block does.", "quantifier": "all block trees, masks and histories of the resource database", "why_tests_cant": "A test excludes one register of a flat block.", "anchors": ["src/uvm/reg/sequences/uvm_reg_mem_built_in_seq.py:67-141", "src/uvm/reg/sequences/uvm_reg_bit_bash_seq.py:247-272", "src/uvm/reg/sequences/uvm_reg_access_seq.py:239-267", "src/uvm/reg/sequences/uvm_mem_access_seq.py:250-279", "src/uvm/reg/sequences/uvm_mem_walk_seq.py:253-281", "src/uvm/reg/uvm_reg_model.py:404-417"]}
{"id": "C227", "title": "The audit trail of resources", "statement": "In every history of read(), write(), set_read_only(), set_read_write(), gets and switching of auditing, a resource has one access record per full name that accessed it while auditing was on, in the order of the first such access, with the exact number of its reads and of its writes that changed the value. Reads without an accessor are counted under '<empty>', writes without one, writes of the value already there and refused writes not at all. The pool keeps the gets tried while auditing was on, failed ones too, in order. Values read and errors reported do not depend on auditing or on accessors. dump(audit=True) cannot show the trail: it raises exactly if the pool holds a resource.", "quantifier": "all histories, resources, accessors and values", "why_tests_cant": "A test reads and writes one resource with one accessor.", "anchors": ["src/uvm/base/uvm_resource.py:156-206", "src/uvm/base/uvm_resource.py:480-572", "src/uvm/base/uvm_resource.py:602-615", "src/uvm/base/uvm_resource.py:787-825", "src/uvm/base/uvm_resource.py:1102-1127", "src/uvm/base/uvm_resource.py:1317-1326", "src/uvm/base/uvm_resource.py:1640-1686"]}
{"id": "C228", "title": "Which test run_test() runs", "statement": "However many calls of run_test() are under way and however they are interleaved with each other and with the making of components: each asks the factory for the first name given as +UVM_TESTNAME= on the command line, else for its argument (an empty +UVM_TESTNAME= asks for none), after a warning if several names are given. It either ends in exactly one fatal message and starts nothing, or makes the test, announces its type (and the override, if the type is another than the one asked for), starts the phases once and reports the summary. At most one test is ever made, also if two calls both found none; each fatal message is given only for its reason. All this as long as fatal messages raise: with them caught, a second run_test() starts the phases again for a test that is not in the hierarchy.", "quantifier": "all command lines, factories, numbers of calls and interleavings", "why_tests_cant": "A test calls run_test() once.", "anchors": ["src/uvm/base/uvm_root.py:221-367", "src/uvm/base/uvm_component.py:222-266"]}
{"id": "C229", "title": "Which phases a phase waits for before it ends", "statement": "In every phase graph in which no schedules, domains or their end markers lead back to each other: get_adjacent_successor_nodes() returns the first phase nodes on the paths leaving a phase, each once; the phases a phase waits for before it ends are exactly the other nodes that come directly (through schedules and domains only) before one of those, each once. If edges are known at both ends this is mutual, and a phase not called 'final' raises KeyError exactly if no node comes after it. If such a cycle is met, on the way forward or on the way back from a successor, the search never ends.", "quantifier": "all phase graphs", "why_tests_cant": "A test has the standard graph.", "anchors": ["src/uvm/base/uvm_phase.py:690-727", "src/uvm/base/uvm_phase.py:1119-1150"]}
{"id": "C230", "title": "Finding an address map by name", "statement": "After every history of building blocks and maps, get_map_by_name() of a block returns the first map created in that block that has the name; if none has it, it looks below the maps of the block in the order of their creation, and below each of them takes the first submap added that has the name, before any deeper one, then what is found in the same way below the first submap that has such a map below it. It returns None, with a warning, exactly if no map of the block and no map below one of them has the name; in particular maps of sub-blocks that were not added as submaps are not found. A map of the block itself, once returned, is returned for ever; one found below may be hidden by a map made later.", "quantifier": "all histories of create_map, add_submap, lock_model and the other calls of the register model; all names", "why_tests_cant": "All shapes of the tree of maps.", "anchors": ["src/uvm/reg/uvm_reg_block.py:462-464", "src/uvm/reg/uvm_reg_block.py:563-593", "src/uvm/reg/uvm_reg_map.py:934-957"]}
{"id": "C231", "title": "When a task phase ends", "statement": "A task phase ends only after phase_ready_to_end() was called for its components, and after the last of these calls the phase had no objection at some moment, then its first sibling (a phase with a common successor) was executing or beyond and had none, then the second one, and so on, the last one looked at having none at the moment of the end; without siblings the phase itself has no objection at the moment of the end. Before each round of phase_ready_to_end() the same was found after the round before. So an objection of the phase or of a sibling that is held since the last round holds up both the end and the next round. There is at least one round and at most max_ready_to_end_iter (20); a further round is made only if the phase went back to EXECUTING since the last one, which it does only while it or a sibling has an objection. With siblings, an objection of the phase that is raised while it waits for the state of a sibling for the last time does not hold it: it ends with the objection outstanding.", "quantifier": "all numbers of siblings; all histories of objections of the phase and the siblings, of the states of the siblings, and of other processes that wait for these states", "why_tests_cant": "All interleavings of objections with the process that ends the phase.", "anchors": ["src/uvm/base/uvm_phase.py:296-309", "src/uvm/base/uvm_phase.py:896-926", "src/uvm/base/uvm_phase.py:1329-1361", "src/uvm/base/uvm_phase.py:1552-1586", "src/uvm/base/uvm_phase.py:1634-1681"]}
{"id": "C232", "title": "Clearing an objection", "statement": "clear() of an objection always sets all its counts to zero and forgets the drains that are about to begin. If no drain was forked, and none runs that was not taken back by a raise, it also lets those go on that wait for ALL_DROPPED of the top, and from then until the next raise_objection() drops of any component are ignored: nothing is counted, no drop below zero is reported, even if processes of earlier drains still run. If moreover no process of a drain is left, the objection behaves from the next raise on as a new one. If a drain was forked and has not begun, clear() raises AttributeError, and if one runs it raises KeyError; then those that wait do not go on, and drops are not ignored: when the drain of a component other than the top ends, a fatal drop below zero is reported for its parent. The warning that clear() gives when objections are outstanding is never issued.", "quantifier": "all hierarchies; all histories of raises and drops with positive counts, clears, and turns of the processes of drains", "why_tests_cant": "All interleavings of clear() with drains.", "anchors": ["src/uvm/base/uvm_objection.py:236", "src/uvm/base/uvm_objection.py:450-456", "src/uvm/base/uvm_objection.py:640-656", "src/uvm/base/uvm_objection.py:710-766", "src/uvm/base/uvm_objection.py:958-959"]}
{"id": "C233", "title": "Texts of report actions", "statement": "format_action(a) is UVM_NO_ACTION for 0 and otherwise the names of the actions in a, in the order DISPLAY LOG RM_RECORD COUNT CALL_HOOK EXIT STOP, each followed by a blank. Two actions have the same text exactly if they agree in the seven actions and both or neither are 0; so an action of other bits only has the empty text. uvm_string_to_action(text) has exactly the actions whose names, with UVM_, are among the words between bars, whatever their order and number; other words, also those with blanks, are passed over. The names of the actions in a, with UVM_ and joined with bars, are read as these actions; the text of format_action() itself is read as no action at all.", "quantifier": "all integers and all texts", "why_tests_cant": "All integers and texts.", "anchors": ["src/uvm/base/uvm_report_handler.py:328-356", "src/uvm/base/uvm_globals.py:213-233", "src/uvm/base/uvm_object_globals.py:244-251"]}
{"id": "C234", "title": "Full names in a register model", "statement": "get_full_name() of a block, register file, register, field, memory or address map is the names on the one way to it from the root block, joined with dots: enclosing blocks from the outside, then enclosing register files, then the register and field. For what is in a register file, the way is that of the file: the block it was itself configured with does not count. If no name has a dot, two objects have the same full name exactly if these names are the same one by one; with dots different ways can give one full name.", "quantifier": "all register models of any depth", "why_tests_cant": "Any nesting of blocks and register files.", "anchors": ["src/uvm/reg/uvm_reg_block.py:379-383", "src/uvm/reg/uvm_reg_file.py:113-147", "src/uvm/reg/uvm_reg.py:272-287", "src/uvm/reg/uvm_reg_field.py:184-194", "src/uvm/reg/uvm_mem.py:241-245", "src/uvm/reg/uvm_reg_map.py:758-773"]}
