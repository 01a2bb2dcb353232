# Formal model of tpoikela/uvm-python in Rocq (Coq 8.16.1)

## 1. How the development is organised

For each area `X` of the library there are up to four files in `rocq/theories`:

* `XModel.v` - the model: executable Gallina functions that follow the Python
  code function by function, branch by branch. No proofs. Every definition cites
  the file and lines in `/repo` it models and says where it simplifies.
* `XSpec.v` - a small specification, written from the English property and not
  from the model (abstract sequences, bit-by-bit tables, edit scripts, ...).
* `XProofs.v` - lemmas.
* `XProps.v` - the theorems, closed by `exact`, each followed by
  `Print Assumptions`, and `Example`s showing that hypotheses are met by a
  concrete non-trivial state.

Conventions: Python `int` is `Z` (or `N` where the code keeps values
non-negative); a Python exception is an explicit constructor of the result, not
a default value; mutable objects are records threaded through `step`
functions; concurrent code (cocotb coroutines) is an interleaving semantics in
which a coroutine runs without interruption between two suspension points
(`await`), which is cocotb's scheduling model; the scheduler may pick any
runnable coroutine.

Properties are stated as they hold of the code. Where the obvious statement is
false of the code, the property says precisely when it holds and what happens
otherwise; theorems named `..._limit` exhibit a concrete execution of the model
showing that a side condition cannot be dropped. A theorem that proves less than
its property says would carry the suffix `_partial` (its property then has
status "partial" in `MANIFEST.json`).

## 2. Trusted base

* Coq's kernel (8.16.1, `coqc`), including `vm_compute` for examples.
* `Print Assumptions` of each theorem (see section 5).
* That the model renders the Python code faithfully (section 4 lists what is
  modelled and what is not). The Python interpreter, cocotb's scheduler, and
  the simulator are not modelled beyond what is stated there.

## 3. Plan per property

| id | what is modelled | how it is proved |
|----|------------------|------------------|
| C01-C03, C05 | mailbox state, its two cocotb events, arbitrarily many coroutines as a step relation | invariant by induction over steps; ghost history of accepted/delivered items |
| C04, C06 | `num`, `used`, `is_full`, `can_put` ... | guarded theorem, counterexample |
| C07 | TLM FIFO operations with the log of both analysis ports | induction over operation list; counterexample for `flush` |
| C08, C09 | UVMQueue on lists | refinement to abstract sequence with an independently written op semantics |
| C10, C11 | UVMPool as an association list in insertion order | refinement to a finite map (function), completeness of iteration |
| C12-C17 | packer as (bits : N/Z, count, packed size) | bit-level lemmas with testbit, induction over field lists; counterexamples for strings/arrays |
| C18 | sv bit helpers, clog2 | algebra over Z |
| C19 | semaphore with coroutines | invariant |
| C20 | glob translation + regex search semantics on the fragment of regexes that the translation produces | soundness/completeness of a matcher w.r.t. an inductive matching relation; counterexample to anchoring |
| C21-C26 | register field: all policies | testbit reasoning per policy against a bitwise table |
| C27-C29 | register: field list | induction on fields, disjointness |
| C30-C32 | map: addresses, bus slicing, lookup | arithmetic, induction on hierarchy and on access list |
| C33 | XatomicX on top of the mailbox | interleaving invariant |
| C34-C36 | factory override resolution | measure: requested types already in the override-info list; unique names |
| C37-C39 | resource pool, config_db | list lemmas; counterexample to last-wins |
| C40-C43 | objection counts on trees; drainer process | invariant by induction over ops; counterexamples by execution |
| C44-C49 | report handler / server / catcher | induction over histories |
| C50-C52 | sequencer arbitration queue, response queue | invariants; counterexample for locks |
| C53-C54 | UVMEvent | interleaving invariant; counterexample for callbacks |
| C55 | DAPs | induction over histories |
| C56 | two-dimensional DP array loop of levenshtein_distance | loop invariant vs. inductive edit scripts |
| C57 | callback queues | list lemmas |
| C58-C60 | phase graph and phase processes | interleaving invariant; counterexamples for `add`/`is_before` |
| C61 | comparer | guarded theorem, counterexample |
| C62, C68 | comparator / channel over unbounded FIFOs | invariant |
| C63 | port graph resolution | induction on acyclic graphs |
| C64 | scope stack | induction on nesting |
| C65 | component tree traversal | induction on trees |
| C66 | register FIFO | induction over histories |
| C67 | string_to_bits | guarded theorem, counterexample |

## 4. What is modelled, and what is not

The header comment of each `*Model.v` names the files and lines it follows and
its simplifications; every definition cites its lines. In short:

| model | code in /repo/src/uvm | left out or simplified |
|-------|------------------------|------------------------|
| Mailbox, TlmFifo | base/uvm_mailbox.py, tlm1/uvm_tlm_fifos.py | debug printing, killed coroutines; forwarding ports identified with the FIFO |
| Chan | tlm1/uvm_tlm_req_rsp.py | binding (see Port); transport is a put and a get |
| Port | base/uvm_port_base.py, tlm1/uvm_analysis_port.py | relationship check (only warns), null provider |
| Cmp | comps/uvm_in_order_comparator.py, uvm_algorithmic_comparator.py | report texts |
| Queue, Pool, PyList | base/uvm_queue.py, base/uvm_pool.py | printing of values |
| Packer | base/uvm_packer.py | reals, time, objects |
| Sv | base/sv.py, uvm_is_match of base/uvm_globals.py | randomisation, formatting; regex operators other than those a glob produces |
| Misc, Scope, Spell | base/uvm_misc.py, uvm_scope_stack.py, uvm_spell_chkr.py | Python's number formatting is trusted |
| Obj | base/uvm_object.py, base/uvm_comparer.py, macros/uvm_object_defines.py | printing, recording; user hooks are pure functions |
| Dap | dap/*.py | printing |
| Event | base/uvm_event.py | times, printing, UVMEventPool |
| Callback | base/uvm_callback.py | tracing, display, derived type registration (never filled) |
| Report | base/uvm_report_*.py, macros/uvm_message_defines.py | text layout, files themselves |
| Resource | base/uvm_resource.py, uvm_resource_db.py, uvm_config_db.py | auditing, locks, printing; scope matching is an arbitrary predicate |
| Factory | base/uvm_factory.py | object construction itself, debug output; name and path matching are arbitrary predicates |
| Objection | base/uvm_objection.py | user callbacks, display, phase interaction |
| Seqr | seq/uvm_sequencer*.py, response queue of seq/uvm_sequence_base.py | recording, priorities, default sequences, waits for irrelevant sequences (see Sel) |
| PhaseRun, PhaseEnd, PhaseGraph | base/uvm_phase.py | jump and sync (not implemented in the library), callbacks, traversals |
| Trav | base/uvm_*_phase.py traversals, child iteration of uvm_component.py | name clashes |
| RegField, Reg, RegAtomic | reg/uvm_reg_field.py, reg/uvm_reg.py | callbacks, coverage, back door paths (see Hdl) |
| RegMap | reg/uvm_reg_map.py | adapters and sequences (a bus is a function of addresses), auto-increment options |
| RegFifo | reg/uvm_reg_fifo.py | user callbacks, byte enables |
| Predictor | reg/uvm_reg_predictor.py write() and check_phase() | the adapter (a transfer is what bus2reg returns), coverage, pre_predict, indirect registers |
| Mem | reg/uvm_mem.py accesses, peek and poke, reg/sequences/uvm_mem_walk_seq.py, uvm_mem_access_seq.py, memory ranges of uvm_reg_map.py | user front and back doors, callbacks, coverage, HDL slices |
| SeqLife | seq/uvm_sequence_base.py start, start_process, wait_for_sequence_state, phase policies; registration in uvm_sequencer_base.py | recording, response queue (Seqr), kill (calls a method the library does not have), several sequencers |
| Tree | base/uvm_component.py constructor, names, children, lookup, depth; uvm_root.py find, find_all | report settings, configuration, domains and recording of the constructor; a component named __top__ without parent; regular expressions outside the fragment of Sv |
| RegSeq | reg/sequences/uvm_reg_bit_bash_seq.py, uvm_reg_hw_reset_seq.py, do_block() of the access and memory tests | bus and adapter (the design is a device answering writes and reads through a map), exclusion of single registers, reset_blk, the access test of one register |
| Rec | base/uvm_tr_database.py, uvm_tr_stream.py, uvm_recorder.py (text database), uvm_transaction.py 174-579, recording part of uvm_component.py | one database, names, radix and line format, failures to open the file, do_* overrides, sequences calling begin_tr() |
| RegBlk | reg/uvm_reg_block.py 84-119, 213-320, 447-485, 596-625, 889-1021, 1179-1335; reg/uvm_reg.py 1882-2068 (HDL paths) | memories, virtual registers and coverage of a block, map initialisation, check of top names; outcomes of register update and mirror are parameters |
| Prn | base/uvm_printer.py (rows of objects, tree and table printer), sprint() of uvm_object.py | text of values, show_root and reference knobs, user formatted rows, empty names of arrays and strings |
| Mam | reg/uvm_mem_mam.py reserve_region() | messages; exact division |
| Cmd | base/uvm_cmdline_processor.py (lookup), command line settings in uvm_component.py 2344-2599 and uvm_root.py 370-391, 553-775 | messages; regular expressions, glob matching and integer parsing are parameters; verbosity of the root (780-851), factory overrides |
| Auto | base/uvm_component.py apply_config_settings, base/uvm_resource.py lookup_scope and sort_by_precedence, base/uvm_object.py set_*_local (clone false), the set and check parts of macros/uvm_object_defines.py | messages; patterns with regular expression characters; field lists of a class hierarchy are put together; a scope stack left over from a failed compare |
| Pko | base/uvm_object.py pack and unpack, base/uvm_packer.py pack_object and unpack_object, the pack and unpack parts of macros/uvm_object_defines.py | user hooks do_pack and do_unpack; use_metadata; arrays; pack_bytes and pack_ints of objects (unpack_bytes and unpack_ints call methods that do not exist); decoding of bytes is a parameter |
| Ind | reg/uvm_reg_item.py do_copy with base/uvm_object.py copy and clone; reg/uvm_reg_indirect.py body of the front door and the prediction of the data register, with the parts of reg/uvm_reg.py write and read they go through | callbacks and coverage; fields (one RW field per register); sockets of maps; processes that run while an indirect access is under way, except object copies; processes resumed by a reset |
| Rgy | base/uvm_registry.py, base/uvm_coreservice.py get_factory, set_factory and reset, on top of the Factory and Sv models | report server and recording database of the core service; overrides by name; special characters in type names |
| Sel | the waits of seq/uvm_sequencer_base.py (742-762, 898-915, 1073-1174) and seq/uvm_sequencer.py (78-231) on the shared event, stop_sequences, on top of the Seqr model | several drivers on one sequencer; locks in C160 (driver part) and C161; recording |
| Bus | parent sequences, responses and register lock in do_write, do_read, do_bus_write and do_bus_read of reg/uvm_reg_map.py, called from write() and read() of reg/uvm_reg.py | data and addresses (see RegMap), arbitration (see Seqr: here the driver finishes pending transfers in any order), user front doors, adapter.parent_sequence, maps without adapter |
| Hdl | HDL paths of reg/uvm_reg_block.py and reg/uvm_reg.py, back door parts of write, read and mirror of reg/uvm_reg.py, dpi/uvm_hdl.py, reg/sequences/uvm_reg_access_seq.py for one register | index elements in paths, simulator delays, user back doors, callbacks, the block and memory parts of the sequence |
| Hier | base/uvm_component.py set_report_*_hier, set_domain, set_phase_imp, m_do_pre_abort, inheritance in the constructor | names (Tree), walks (Trav), what set_domain does to the domain's phases, hooks that change the hierarchy |
| RegCb | reg/uvm_reg.py do_write, do_read, do_predict: hooks and callbacks; reg/uvm_reg_field.py do_predict; reg/uvm_reg_cbs.py default methods, read-only and write-only callbacks | the bus itself (Bus), back doors (Hdl), individual field accesses, effects of hooks other than value, status and exceptions |
| Mtr | reg/uvm_reg_map.py add_reg, add_submap, set_sequencer, set_auto_predict, set_check_on_read, get_root_map, get_submaps, get_registers; reg/uvm_reg.py is_in_map, get_local_map, get_default_map, get_rights, Xcheck_accessX; reg/uvm_reg_block.py create_map, set_default_map, lock_model | offsets and addresses (RegMap), memories, maps not made by create_map, add_parent_map called directly |
| Ctx | seq/uvm_sequence_item.py set_item_context, setters, get_depth, get_full_name, get_root_sequence, get_sequence_path; seq/uvm_sequence_base.py start (context, priority), create_item, start_item, finish_item; seq/uvm_sequencer_base.py execute_item; macros/uvm_sequence_defines.py uvm_do..., uvm_send... | waiting and arbitration (Seqr, Sel), hooks and life of a sequence (SeqLife), uvm_create and the rand_send macros |
| Dom | base/uvm_phase.py get_full_name, get_schedule, get_schedule_name, get_domain, get_domain_name, find, find_by_name, wait_for_state; base/uvm_domain.py get_common_domain, add_uvm_phases, get_uvm_domain, get_uvm_schedule; base/uvm_component.py set_domain, define_domain | user-defined define_domain; sync/unsync of domains; jump; add() itself is in PhaseGraph |
| Ids | seq/uvm_sequencer_base.py m_register_sequence, m_unregister_sequence, m_find_sequence; seq/uvm_sequence_base.py m_get_sqr_sequence_id, m_set_sqr_sequence_id, ids in start; seq/uvm_sequencer_param_base.py send_request, put_response; seq/uvm_sequence_item.py set_id_info | arbitration and locks (Seqr, Sel), the response queue (SeqLife), the request FIFO, kill |
| Wt | base/sv.py wait; base/uvm_resource.py wait_modified, write, set_read_only, set_read_write | access records; precedence (Resource) |
| Mcb | reg/uvm_mem.py do_write, do_read, Xcheck_accessX, write, read, burst_write, burst_read: hooks, callbacks, user-defined front door | user code that changes other attributes of the operation; coverage; the message at the end |
| Sock | tlm2/uvm_tlm2_sockets.py, uvm_tlm2_sockets_base.py, the transport methods of uvm_tlm2_imps.py | connections with plain ports; the error of an initiator given an implementation; min_size and max_size other than 1 |
| Xlt | reg/uvm_reg_sequence.py body, do_reg_item; uvm_reg_map.py do_write, do_read without adapter; peek, get, item_done of the upstream sequencer | the bus transfers (Bus), values, locks and other drivers on the upstream sequencer, missing sequencer or adapter (fatal) |
| Sum | base/uvm_report_server.py counts, get_severity_set, get_id_set, do_print, get_summary_string, compose_report_message, ename | message elements, actions other than display, log and count (Report), the catchers, the layout of printed tables, max_quit_overridable (C45) |
| Wfo | base/uvm_objection.py wait_for and the setting of its events | when objections reach an object (Objection) |
| Scan | base/sv.py sscanf and its table of formats; base/uvm_root.py m_check_verbosity, m_do_factory_settings, m_process_inst_override | %f; the limit on digits of int() |
| Net | base/uvm_port_base.py connect with both directions, m_check_relationship, debug_connected_to, debug_provided_to, get_connected_to, get_provided_to | null providers, level other than 0, texts depending on end_of_elaboration_ph |
| Mbd | reg/uvm_mem.py poke, peek, get_full_hdl_path, has_hdl_path, backdoor_read, backdoor_write, backdoor_read_func; dpi/uvm_hdl.py with elements of arrays (Verilator) | other simulators, negative offsets, indices within paths; blocks' paths are those of Hdl |
| Fpr | base/uvm_factory.py convert2string, print_factory, register, set_type_override_by_type/by_name, set_inst_override_by_type | types without names or with the same name; sformatf is concatenation; names with '%' |
| Dsp | base/uvm_objection.py m_display_objections, get_name_depth, get_leaf_name, get_objection_total | how the counts arise (Objection); the order of entries is arbitrary; the printing of numbers |
| Fdb | base/uvm_factory.py debug_create_by_type, m_debug_create, m_debug_display, on Factory | debug_create_by_name; texts and columns of the dump; overrides by name |
| Agt | comps/uvm_agent.py on Resource and the sorting of Auto | a field is_active declared with field macros; record of accesses |
| Cov | coverage models of reg/uvm_reg_block.py, uvm_reg.py, uvm_mem.py; include_coverage and build_coverage on Resource | sample hooks of the user; changing a block tree between calls; virtual registers |
| Exc | reg/sequences: uvm_reg_mem_built_in_seq.py, the block loops of the bit bash, access and walk sequences with the resources that exclude, on Resource | the loop of the reset test over maps (RegSeq); what a test does to a register or memory (RegSeq, Hdl) |
| Aud | base/uvm_resource.py: access records, get records, auditing, read/write, dump | times of records; the text printed by dump; lookup (Resource) and wait_modified (Wt) |
| Rt | base/uvm_root.py run_test, running_test_msg; the checks of the constructor of uvm_component.py | what the phases do (PhaseRun); the factory (a parameter); the warning BDTYP before INVTST |
| Sib | base/uvm_phase.py get_adjacent_successor_nodes, get_predecessors_for_successors: the part of PhaseRunModel that computes siblings, against paths | see PhaseRun |
| Mbn | reg/uvm_reg_block.py get_maps, get_map_by_name, on MtrModel | see Mtr; the message of the warning |
| Eop | base/uvm_phase.py wait_for_self_and_siblings_to_drop, _wait_for_all_dropped (1552-1586, 1634-1681) | when a wait for an objection returns (see Wfo; here at any time); kill and jump of the phase; traces, callbacks |
| Clr | base/uvm_objection.py clear, m_cleared, m_top_all_dropped, on ObjectionModel | see Objection; what happens after the AttributeError of clear; the scheduled drains of other objections |
| Fmt | base/uvm_report_handler.py format_action, base/uvm_globals.py uvm_string_to_action | - |
| Nam | get_full_name of reg/uvm_reg_block.py, uvm_reg_file.py, uvm_reg.py, uvm_reg_field.py, uvm_mem.py, uvm_reg_map.py | how configure() sets the parents; objects configured again |

Not modelled at all: the Python interpreter, cocotb and the simulator beyond the
scheduling rule of section 1; message formatting; everything not listed above.

## 5. Assumptions

`Print Assumptions` follows every property theorem; each answers
"Closed under the global context": no axiom is used. The checker additionally
lists seven constants of `Coq.ssr.ssrunder` (Coq's standard library), which are
the parameters of a module type loaded with the standard library; no theorem
depends on them.
