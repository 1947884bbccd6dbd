{
 "claims": [
  {
   "property": "C01",
   "status": "partial",
   "theorems": [
    "C01_structured_partial",
    "C01_cycles_partial",
    "C01_switch_refuted"
   ],
   "note": "proved for all programs whose switches with cycle boundaries have a default, also cycle by cycle with inputs, waits and gotos; switch without default refuted"
  },
  {
   "property": "C02",
   "status": "partial",
   "theorems": [
    "C02_cycle_is_walk_partial",
    "C02_goto_refuted",
    "C02_switch_refuted"
   ],
   "note": "proved for graphs of programs without goto into a branch free of cycle boundaries and without switch lacking a default; both refuted"
  },
  {
   "property": "C03",
   "status": "partial",
   "theorems": [
    "C03_goto_partial",
    "C03_forward_refuted",
    "C03_backward_refuted"
   ],
   "note": "proved when no goto enters a branch free of cycle boundaries; refuted otherwise, forward and backward"
  },
  {
   "property": "C04",
   "status": "partial",
   "theorems": [
    "C04_return_ignored_partial",
    "C04_refuted"
   ],
   "note": "refuted: return is proved to have no effect at all in an algorithm"
  },
  {
   "property": "C05",
   "status": "proved",
   "theorems": [
    "C05_numbering",
    "C05_machine",
    "C05_index_partial"
   ],
   "note": "on every graph; states that are skipped (C07) are replaced by the state they skip to"
  },
  {
   "property": "C06",
   "status": "partial",
   "theorems": [
    "C06_state_register_partial",
    "C06_onehot_32_states_refuted",
    "C06_return_code_binary",
    "C06_return_code_onehot_refuted",
    "C06_return_default_binary",
    "C06_return_default_onehot_refuted"
   ],
   "note": "binary encoding up to 2^30 states and one-hot up to 31 states proved; beyond that, and for one-hot subroutine returns, refuted"
  },
  {
   "property": "C07",
   "status": "partial",
   "theorems": [
    "C07_skip",
    "C07_skip_idle",
    "C07_finishes_partial",
    "C07_finishes_refuted"
   ],
   "note": "skipping proved on every graph; termination characterised exactly, and refuted for a loop of empty blocks"
  },
  {
   "property": "C08",
   "status": "partial",
   "theorems": [
    "C08_stage",
    "C08_handover",
    "C08_pipeline",
    "C08_rank",
    "C08_progress",
    "C08_not_taken",
    "C08_branch_not_taken_refuted",
    "C08_stall_not_taken_refuted",
    "C08_activation_refuted",
    "C08_nested_refuted"
   ],
   "note": "every number of stages, durations, stalls and triggers: each stage hands over exactly the items it received, in order; which activations of the parent create an item: refuted for conditionals around a first stage with several states or stalls, for a busy first stage, and for nested pipelines after reset. The code of a stage is any behaviour ending in its last state"
  },
  {
   "property": "C09",
   "status": "proved",
   "theorems": [
    "C09_done",
    "C09_stays",
    "C09_eventually"
   ],
   "note": "every set of pipelines and every schedule; also stays so, and eventually happens when stages advance"
  },
  {
   "property": "C10",
   "status": "proved",
   "theorems": [
    "C10_order_valid",
    "C10_rejects_only_impossible",
    "C10_natural_order"
   ],
   "note": "soundness, completeness and natural order, given the read/written sets of the stages"
  },
  {
   "property": "C11",
   "status": "partial",
   "theorems": [
    "C11_output",
    "C11_last_write",
    "C11_first_write",
    "C11_independent",
    "C11_conditional_write_refuted",
    "C11_refused_iff"
   ],
   "note": "stages of assignments and conditionals in always blocks, every depth and pattern of accesses: each stage computes the sequential result of its item; items independent when variables are assigned before being read, refuted for a conditional first assignment; operators ^= v= vv= are in C53; nested pipelines are not modelled here"
  },
  {
   "property": "C12",
   "status": "partial",
   "theorems": [
    "C12_program",
    "C12_source_result",
    "C12_needed_register_kept",
    "C12_read_first_kept",
    "C12_same_code",
    "C12_temporaries_same_behaviour",
    "C12_temporaries_same_outputs",
    "C12_after_termination_refuted",
    "C12_loop_exit_refuted",
    "C12_bitfield_member_refuted"
   ],
   "note": "always_before, states, always_after with assignments, part selects, conditionals, switches and loops: registers whose previous value is needed are kept, and the circuit with temporaries behaves as the circuit with registers, for the states of every program the model compiles, up to what the source computes; refuted once the algorithm has terminated, when leaving a loop followed by a step (both for values read after the states), and for bitfield members; pipelines and instances are not modelled"
  },
  {
   "property": "C13",
   "status": "partial",
   "theorems": [
    "C13_reads_found_partial",
    "C13_reads_keep_register_partial",
    "C13_temporaries_carry_nothing_partial",
    "C13_tables_partial",
    "C13_part_write_refuted",
    "C13_bitfield_read_refuted",
    "C13_index_write_refuted"
   ],
   "note": "state machines with assignments of whole variables: every path, every state, and no observable value carried; loops of states with tables; refuted for assignments to parts of a variable and for table indices under a bitfield"
  },
  {
   "property": "C14",
   "status": "partial",
   "theorems": [
    "C14_straight_line_partial",
    "C14_read_last_partial",
    "C14_cycle_partial",
    "C14_last_write",
    "C14_no_write",
    "C14_block",
    "C14_read",
    "C14_parts",
    "C14_written",
    "C14_member_as_whole",
    "C14_signed_member_refused",
    "C14_left_sides"
   ],
   "note": "blocks with nested conditionals, for flip-flops, temporaries, inputs, constants and wires, and every access (whole, entry of a table, part, member of a bitfield, part of a member): each read sees the last write of the cycle, else the register; the register takes the last write, bit by bit; exactly which blocks are written. Whole state machines for whole flip-flops. Signed members of bitfields are refused, and left sides are never in $signed( ). Wires have a fixed value during the cycle; pipelines are in C08"
  },
  {
   "property": "C15",
   "status": "partial",
   "theorems": [
    "C15_instances_settle_partial",
    "C15_callable_instance_refuted",
    "C15_reginputs_instance_refuted",
    "C15_tested_output_refuted",
    "C15_accumulate_bound_output_refuted",
    "C15_register_through_instance_refuted",
    "C15_no_missed_loop_partial",
    "C15_closure_terminates",
    "C15_false_loop_refuted",
    "C15_branch_refuted",
    "C15_condition_refuted",
    "C15_else_branch_refuted",
    "C15_branches_partial"
   ],
   "note": "accepted implies no loop and complete dependency sets for sequences, and for any nesting of conditionals whose branches assign variables of their own; variables assigned again in a branch, tests, and the converse are refuted; loops through instances: accepted blocks settle to unique values when callable and <reginputs> instances have no combinational path and tests read no combinational output, both needed (refuted otherwise), and two loop-free patterns that are refused; tracked expressions are in C48"
  },
  {
   "property": "C16",
   "status": "partial",
   "theorems": [
    "C16_stack_partial",
    "C16_machine_partial",
    "C16_ids",
    "C16_last_refuted",
    "C16_recursion_refuted"
   ],
   "note": "caller ids and registers behave as a stack, for every program without recursion (block level); machine level for programs without conditionals; refuted for a last subroutine ending with a step and for recursion through a forward declaration"
  },
  {
   "property": "C17",
   "status": "partial",
   "theorems": [
    "C17_function_call",
    "C17_again_refuted"
   ],
   "note": "one instance called by a structured program (calls in loops and conditionals, asynchronous calls and joins): the two modules compute what the program with procedure calls computes; called again while running: refuted. Registered outputs, no bound inputs; several instances and combinational outputs are not modelled"
  },
  {
   "property": "C18",
   "status": "partial",
   "theorems": [
    "C18_chain_refuted",
    "C18_unsigned_partial",
    "C18_signed_partial",
    "C18_difference_partial",
    "C18_reports_narrow_partial",
    "C18_replication_refuted",
    "C18_number_product_refuted",
    "C18_number_sum_refuted",
    "C18_shift_refuted",
    "C18_opposite_refuted",
    "C18_nested_difference_refuted",
    "C18_mixed_refuted",
    "C18_concat_sign_refuted"
   ],
   "note": "unsigned and signed expressions over sized operands proved to fit the inferred width and to be stored exactly; replication, plain numbers, left shifts, unary minus, nested unsigned differences, mixed signs and signed concatenations refuted"
  },
  {
   "property": "C19",
   "status": "partial",
   "theorems": [
    "C19_errors_first_line_partial",
    "C19_errors_single_line_chunks",
    "C19_interior_line_refuted",
    "C19_warning_refuted",
    "C19_empty_refuted",
    "C19_interior_lines"
   ],
   "note": "first line of every chunk and single-line chunks proved; interior lines of multi-line insertions, warnings and empty maps refuted"
  },
  {
   "property": "C20",
   "status": "partial",
   "theorems": [
    "C20_assemble_correct",
    "C20_accepts_acyclic",
    "C20_rejects_cycles",
    "C20_resolution_partial",
    "C20_subfolder_refuted",
    "C20_folder",
    "C20_next_to"
   ],
   "note": "assembly proved exact, terminating and rejecting exactly the cycles for resolved names; name resolution prefers the base name (refuted); accumulation of search paths not modelled"
  },
  {
   "property": "C21",
   "status": "partial",
   "theorems": [
    "C21_line_comment",
    "C21_block_comment_partial",
    "C21_double_star_refuted",
    "C21_double_star_error_refuted"
   ],
   "note": "line comments proved, block comments proved without a double star before the end; refuted otherwise. The LibSL parser primitives are assumed"
  },
  {
   "property": "C22",
   "status": "proved",
   "theorems": [
    "C22_clog2",
    "C22_memory_address",
    "C22_single_entry_memory",
    "C22_define_width"
   ],
   "note": "clog2 exact and minimal, memory addresses covered, defines keep their value"
  },
  {
   "property": "C23",
   "status": "partial",
   "theorems": [
    "C23_members_partition",
    "C23_first_is_msb",
    "C23_initializer_partial",
    "C23_initializer_refuted",
    "C23_accessible"
   ],
   "note": "layout fully proved; initializer proved when sized constants have the width of their member, refuted otherwise"
  },
  {
   "property": "C24",
   "status": "partial",
   "theorems": [
    "C24_bits_connected",
    "C24_multiple_rejected",
    "C24_all_recorded",
    "C24_whole_after_rejected",
    "C24_range_after_whole_refuted"
   ],
   "note": "bit-level connection and conflict detection proved; a range bound after the whole variable is not rejected (refuted)"
  },
  {
   "property": "C25",
   "status": "partial",
   "theorems": [
    "C25_disjoint_accepted",
    "C25_whole_and_part_rejected_partial",
    "C25_overlap_rejected_refuted",
    "C25_same_range_refuted"
   ],
   "note": "disjoint ranges accepted, whole+range rejected; overlap detection refuted"
  },
  {
   "property": "C26",
   "status": "partial",
   "theorems": [
    "C26_file_width",
    "C26_file",
    "C26_file_sized",
    "C26_file_tail_refuted",
    "C26_string_codes",
    "C26_string_wide_refuted",
    "C26_sized_list",
    "C26_autosize",
    "C26_reset_values",
    "C26_sized_string_partial",
    "C26_string_padding_refuted",
    "C26_pad_uninitialized_reset_refuted"
   ],
   "note": "lists, padding, autosize, reset values proved; the integers of files and codes of characters down to the bits of the entries; refuted: zero padding of short strings, the last bytes of a file that do not make an integer are dropped without an error, characters from 128 on in entries of more than 8 bits"
  },
  {
   "property": "C27",
   "status": "partial",
   "theorems": [
    "C27_bitfield_access_inside",
    "C27_nested_part_select_partial",
    "C27_part_select_nonempty",
    "C27_part_select_inside_refuted"
   ],
   "note": "bitfield accesses proved inside; part selects are not checked (refuted)"
  },
  {
   "property": "C28",
   "status": "partial",
   "theorems": [
    "C28_every_formal_matched",
    "C28_scalars",
    "C28_group_partial",
    "C28_segments",
    "C28_underscore_member_refuted",
    "C28_wrong_length_refuted",
    "C28_capture_refuted"
   ],
   "note": "exact description of accepted calls and of the matching; scalars exact; groups proved when members have no underscore and the next formal is not named after a member (refuted otherwise)"
  },
  {
   "property": "C29",
   "status": "proved",
   "theorems": [
    "C29_accepted",
    "C29_last_address_refuted",
    "C29_riscv_address_map"
   ],
   "note": "every memory size and number of ports; also exactly how many ports are accepted: one less than the addresses allow (C29_last_address_refuted)"
  },
  {
   "property": "C30",
   "status": "partial",
   "theorems": [
    "C30_whole_after_use_rejected",
    "C30_pins_used_once_partial",
    "C30_direction",
    "C30_same_bit_refuted",
    "C30_whole_then_bit_refuted",
    "C30_direction_bits_refuted"
   ],
   "note": "proved for whole pins; bits of pins refuted"
  },
  {
   "property": "C31",
   "status": "partial",
   "theorems": [
    "C31_modes_without_repetition_partial",
    "C31_no_mode_lost",
    "C31_once_refuted",
    "C31_listed_refuted"
   ],
   "note": "proved for lists without repetition; no mode lost in general; duplicates refuted"
  },
  {
   "property": "C32",
   "status": "partial",
   "theorems": [
    "C32_identifier_partial",
    "C32_group_refuted",
    "C32_inout_refuted"
   ],
   "note": "identifiers of inputs proved; members of groups and inouts refuted"
  },
  {
   "property": "C33",
   "status": "partial",
   "theorems": [
    "C33_sameas_partial",
    "C33_shadowing_refuted",
    "C33_parameters_first"
   ],
   "note": "proved when the root is not hidden at the declaration; shadowing refuted"
  },
  {
   "property": "C34",
   "status": "partial",
   "theorems": [
    "C34_template_partial",
    "C34_order_partial",
    "C34_order_refuted",
    "C34_doubled_dollars",
    "C34_dollar_refuted",
    "C34_between_refuted"
   ],
   "note": "proved for values without % and $ sequences (doubled $ are restored) and templates whose markers are separated by non-identifier text; each restriction refuted"
  },
  {
   "property": "C35",
   "status": "proved",
   "theorems": [
    "C35_edge",
    "C35_history",
    "C35_keeps_initial",
    "C35_startup",
    "C35_autorun",
    "C35_called"
   ],
   "note": "every register and every history of reset, run and computed values; start of the state machine of autorun and of called algorithms; variables of pipelines excluded"
  },
  {
   "property": "C36",
   "status": "partial",
   "theorems": [
    "C36_one_cycle",
    "C36_accepted",
    "C36_first_refuted",
    "C36_access_refuted"
   ],
   "note": "delay of exactly one cycle for every block and every cycle but the first; refuted for the first cycle (no initial value) and for parts of variables (null pointer)"
  },
  {
   "property": "C37",
   "status": "partial",
   "theorems": [
    "C37_literal_partial",
    "C37_digits_refuted",
    "C37_zero_width_refuted",
    "C37_is_number",
    "C37_decimal_x_refuted"
   ],
   "note": "proved for widths that fit an int; digits illegal in their base and zero widths are accepted (refuted)"
  },
  {
   "property": "C38",
   "status": "partial",
   "theorems": [
    "C38_variables_distinct",
    "C38_names_designate_partial",
    "C38_trickling_distinct",
    "C38_label_port_refuted",
    "C38_subroutine_io_refuted",
    "C38_two_subroutines_refuted"
   ],
   "note": "variables and trickling flip-flops proved distinct; subroutine parameters and label blocks refuted"
  },
  {
   "property": "C39",
   "status": "partial",
   "theorems": [
    "C39_sameas",
    "C39_bound_partial",
    "C39_specialized",
    "C39_hierarchy_partial",
    "C39_recorded",
    "C39_capture_refuted",
    "C39_capture_specialized_refuted",
    "C39_case_refuted",
    "C39_initializer_refuted",
    "C39_unrelated_refuted",
    "C39_unresolved",
    "C39_typed_initial"
   ],
   "note": "every chain of sameas, every hierarchy of instances: width, sign and initial value of the bound variable, of the specialization, of the end of the chain; refuted when a port has the name of the auto variable bound to another one, for names differing by case, for initial values written in sameas declarations, for auto variables in a body. Groups and interfaces not modelled"
  },
  {
   "property": "C40",
   "status": "partial",
   "theorems": [
    "C40_params_restored_partial",
    "C40_params_visible_partial",
    "C40_instantiations_independent_partial",
    "C40_false_refuted",
    "C40_other_globals_refuted"
   ],
   "note": "proved for parameters whose previous value is not the boolean false; other globals written by the body stay changed (refuted)"
  },
  {
   "property": "C41",
   "status": "partial",
   "theorems": [
    "C41_compiles_partial",
    "C41_fuel",
    "C41_rejects",
    "C41_structured",
    "C41_runs_partial",
    "C41_branch_refuted",
    "C41_empty_refuted"
   ],
   "note": "breaks in loops, distinct labels, declared targets are necessary for every program, and sufficient for programs without goto; with gotos, sufficient when no goto enters a branch without cycle boundary and each goto follows a write or a cycle boundary, or goes to a label before a plain instruction; refuted otherwise (assertion, endless search)"
  },
  {
   "property": "C42",
   "status": "partial",
   "theorems": [
    "C42_paste_partial",
    "C42_safe_partial",
    "C42_machine_partial",
    "C42_function_partial",
    "C42_hoist_refuted",
    "C42_capture_refuted",
    "C42_declaration_refuted",
    "C42_alias_refuted"
   ],
   "note": "every nesting of instances in blocks, conditionals and loops, up to the state machine and as a stand-alone run, when inputs, outputs and variables of circuitries are not called as variables of the algorithm, variables are declared before their name is used and expressions are given only where nothing was assigned before in the block; refuted without each of these conditions; generic circuitries, groups and partial accesses as arguments are not modelled"
  },
  {
   "property": "C43",
   "status": "partial",
   "theorems": [
    "C43_input_partial",
    "C43_unbound_partial",
    "C43_output_partial",
    "C43_one_driver_partial",
    "C43_chain_partial",
    "C43_direction_partial",
    "C43_checks_partial",
    "C43_registered_partial",
    "C43_order_partial",
    "C43_twice_refuted",
    "C43_to_input_refuted",
    "C43_group_ignored_refuted",
    "C43_auto_order_refuted",
    "C43_inout_order_refuted"
   ],
   "note": "every set of instances, ports, bindings of identifiers and groups, any order of the instances: inputs bound once, inputs not mentioned, outputs bound to variables and outputs of the algorithm, single driver, directions; refuted for an input bound twice, an output bound to an input of the algorithm, a binding of groups matching no port, variables declared after the instance, inouts bound in both ways. Connections of inouts and parts of variables are not included (C24, C25)"
  },
  {
   "property": "C44",
   "status": "partial",
   "theorems": [
    "C44_sound_partial",
    "C44_complete_partial",
    "C44_default_partial",
    "C44_autorun_refuted",
    "C44_cover_refuted",
    "C44_onehot_refuted",
    "C44_stable_first_refuted",
    "C44_stable_loop_refuted",
    "C44_stable_if_refuted",
    "C44_wasin_partial",
    "C44_values_partial",
    "C44_timing_refuted"
   ],
   "note": "called algorithms, every program with assertions and assumptions in its states, every behaviour of reset, run and inputs: soundness and completeness of what is reported; the assumption on the default state excludes nothing; checks do not change values. Refuted: algorithms with autorun (no execution is considered), covers (reached before reset), stable and past checks with one-hot encoding, at the beginning of an algorithm, in conditionals and inside of loops, number of cycles. A past check passes exactly when all transitions to its state come from the label. Checks in always blocks, pipelines and instances are not modelled"
  },
  {
   "property": "C45",
   "status": "partial",
   "theorems": [
    "C45_read_partial",
    "C45_word_partial",
    "C45_rom",
    "C45_hold",
    "C45_address",
    "C45_outside",
    "C45_single_refuted",
    "C45_simulation_partial",
    "C45_write_refuted",
    "C45_both_refuted",
    "C45_ports",
    "C45_mask_partial",
    "C45_mask_refuted",
    "C45_widths",
    "C45_config",
    "C45_clocks_partial",
    "C45_clocks_refuted",
    "C45_program_partial",
    "C45_documentation",
    "C45_source_partial"
   ],
   "note": "every template, configuration, sequence of accesses and of clock edges: bits read are those written last; widths, addresses, masks of the width of the data; whole programs with the memory on their clock. Refuted: reads during a write (simulation, hardware and dual ports differ), both ports writing one entry, masks with a width of 1 and widths not multiple of a part, clocks on single port memories (assertion), addresses of single entries. The inputs of the memory are taken as registers (see C12 for their demotion); unknown values are arbitrary numbers; memories bound to other units are not modelled"
  },
  {
   "property": "C46",
   "status": "partial",
   "theorems": [
    "C46_pins",
    "C46_run",
    "C46_riscv",
    "C46_required",
    "C46_declared_partial",
    "C46_missing",
    "C46_reset_declared_refuted",
    "C46_bound_reset_refuted",
    "C46_check_refuted",
    "C46_formal_refuted",
    "C46_internal_check_refuted",
    "C46_isdone_refuted",
    "C46_source",
    "C46_one_source",
    "C46_init_partial",
    "C46_not_driven",
    "C46_internal_refuted",
    "C46_self_reset",
    "C46_pipeline_partial",
    "C46_pipeline_refuted"
   ],
   "note": "every hierarchy: pins against ports, where a reset is needed, which signal resets each unit, initialization of all units by one cycle of reset when there is no internal reset, exact condition for a use of reset without port. Refuted: reset read, given to a Verilog module or used by a check in a unit that needs none, text for formal verification of such units, checks in units with an internal reset, isdone on instances without state machine, the instance producing the internal reset, pipelines of units without state machine. Constants, tracked expressions and tables are left out; clock domains are not modelled"
  },
  {
   "property": "C47",
   "status": "partial",
   "theorems": [
    "C47_one_definition",
    "C47_expansion_ends",
    "C47_same_behaviour",
    "C47_same_behaviour_unmixed",
    "C47_same_outputs",
    "C47_source_result",
    "C47_reassigned_register_refuted",
    "C47_macro_wide",
    "C47_macro_narrow",
    "C47_carry_lost_refuted",
    "C47_constant_fits",
    "C47_unsigned_constant_partial",
    "C47_signed_power_refuted",
    "C47_constant_width_refuted",
    "C47_partial_access_legal",
    "C47_bitfield_member_refuted"
   ],
   "note": "always_before, states, always_after as in C12: one definition per macro, expansion ends, runs and outputs with macros are those with registers, when registers are assigned at one place at most, or when the analysis meets no entry with both sides of a variable assigned again; up to what the source computes for programs of C01. Widths and signs for assigned expressions as wide as the variable, or not depending on the size of the context. Refuted: register assigned again after being read on both sides, carry of a sum narrower than the variable, signed powers of two, widths of constants, members of bitfields. Wires, instances and tracked expressions are not modelled"
  },
  {
   "property": "C48",
   "status": "partial",
   "theorems": [
    "C48_reads_expression",
    "C48_accepted_settles_partial",
    "C48_delayed",
    "C48_assigned_before_refuted",
    "C48_loop_through_test_refuted",
    "C48_loop_through_branch_refuted",
    "C48_delayed_loop_refuted",
    "C48_false_loop_refuted",
    "C48_delayed_input_refuted"
   ],
   "note": "always_before, states, always_after of any shape: when trackers are not recursive and no variable of their expressions is assigned after a read in the cycle, the circuit settles in one way only, and it is the program where trackers are replaced by their expressions; <:: is the expression on the values of the end of the previous cycle, trackers in it being immediate; accepted bodies without conditionals, with <:: trackers over variables, have exactly one behaviour. Refuted: the error on expressions changed after a read is never reported (its test is about the wrong variable), loops through tests of conditionals, through branches and through <:: of trackers are accepted and have no behaviour, a loop is reported through a register, <:: of an input is not delayed. Instances are left out."
  },
  {
   "property": "C49",
   "status": "partial",
   "theorems": [
    "C49_lockstep_partial",
    "C49_cycles_partial",
    "C49_terminating_partial",
    "C49_chain_partial",
    "C49_loops_partial",
    "C49_if_partial",
    "C49_exit_refuted",
    "C49_one_branch_refuted",
    "C49_nested_break_refuted"
   ],
   "note": "Programs without goto, over the state machines of C01: lockstep with a deterministic execution of the text in which each end of cycle is given by the text, hence the number of cycles by induction on the text, exact when something is executed in the last cycle (otherwise the machine may save the last, empty one), with inputs changing every cycle; corollaries for chains, sequences of loops, conditionals with ++:. Refuted: leaving a loop that contains break takes a cycle; a conditional of which only one branch reaches what follows takes a cycle when that branch has cycles, or when the other one breaks under conditions. goto and subroutine calls are left out."
  },
  {
   "property": "C50",
   "status": "partial",
   "theorems": [
    "C50_latency",
    "C50_latency_dot",
    "C50_stream",
    "C50_chain"
   ],
   "note": "Over circuits of a parent and instances that agree between clock edges (existence and uniqueness of the values: C15): latencies of the four kinds of bindings and of the dot syntax, instances with registers compute what the unit alone computes on the assigned values, chains. The parent is one combinational block with registers; instances bind whole variables (no groups, parts or expressions), calls and their cycles are in C17."
  },
  {
   "property": "C51",
   "status": "partial",
   "theorems": [
    "C51_program_partial",
    "C51_text_partial",
    "C51_quote_refuted",
    "C51_quote_evaluated_refuted",
    "C51_backslash_refuted",
    "C51_glued_comment_refuted",
    "C51_division_refuted",
    "C51_lua_first_refuted",
    "C51_string_lines_refuted"
   ],
   "note": "Every text made of lines of words, strings with escapes, insertions, divisions, comments and $$ lines, for both behaviours left open in the LibSL reader: the Lua program reads as one call per non-empty line with its words, strings, insertions and line number, and the $$ lines, in order; without $$ lines, the text output is the text of the source. Refuted: a single quote in a string ends the Lua string (error, or evaluation of what follows), escaped backslashes in strings, strings over several lines, comments glued to a word, a / at the end of a line before a comment is lost, text before $$ comes after the Lua line. Lua beyond calls, strings and concatenation is not modelled."
  },
  {
   "property": "C52",
   "status": "partial",
   "theorems": [
    "C52_units_partial",
    "C52_balanced_partial",
    "C52_program_partial",
    "C52_correlated_refuted",
    "C52_blocks_refuted",
    "C52_lua_comment_refuted",
    "C52_name_refuted",
    "C52_string_refuted",
    "C52_split_rejected",
    "C52_names"
   ],
   "note": "Sources given by a grammar (text, comments, strings, insertions, Lua lines, conditionals and loops nested at any depth): units are found with exact extents when braces are balanced along the first branch of each conditional, in particular when they are balanced for all choices and numbers of iterations; the Lua program is the text around units and two functions per unit, with line numbers, registered under the name as written with its insertions evaluated; units split by conditionals are rejected. Refuted: conditionals whose first branches are not taken together, if(x), do and function in expressions, Lua comments with braces or quotes, names made with calls, comments before the name, ports on the next line, strings with the word unit outside of units."
  },
  {
   "property": "C53",
   "status": "partial",
   "theorems": [
    "C53_sets",
    "C53_values_partial",
    "C53_backward_partial",
    "C53_forward",
    "C53_after",
    "C53_next_cycle",
    "C53_one_stage",
    "C53_quiet",
    "C53_backward_refuted",
    "C53_after_refuted",
    "C53_forward_refuted",
    "C53_plain_refuted",
    "C53_mixed_refuted"
   ],
   "note": "stages of one cycle with assignments and conditionals, every pipeline accepted, every cycle: what each stage sees, the order of the stages being given by C10, when no variable assigned before the pipeline is assigned again by a stage evaluated before and not shown; one stage per variable. Refuted: ^= not seen by a later stage evaluated before (no error is reported), vv=, v= and = seen in the same cycle by stages evaluated after when the variable is also assigned before the pipeline, ^= and v= mixed in one stage."
  },
  {
   "property": "C54",
   "status": "partial",
   "theorems": [
    "C54_gathered_partial",
    "C54_unit_gathered_partial",
    "C54_welcome_partial",
    "C54_joined_names_refuted",
    "C54_algorithm_partial",
    "C54_unit_partial",
    "C54_accepted_partial",
    "C54_unit_accepted_partial",
    "C54_use_before_declaration_refuted",
    "C54_stage_after_switch_refuted",
    "C54_hidden_name_refuted"
   ],
   "note": "every program of declarations, accesses, blocks, conditionals, switches, loops, break, steps, labels, jumps, returns, repeats, subroutines and pipelines, every reuse of names: targets, warnings of shadowing and acceptance are those of lexical scope, when no name is used before its declaration in the same run and stages do not declare after a switch; exactly the programs that follow rules given on the source are gathered without error. Refuted: a local variable of a subroutine is refused because of the joined name of another one, a use before a declaration in the same block designates it, the end of a stage after a switch is not visible in the next stage, the variable l_x of a block with label l is reached out of scope from a block that is not a state."
  },
  {
   "property": "C55",
   "status": "partial",
   "theorems": [
    "C55_reported_partial",
    "C55_unit_reported_partial",
    "C55_no_false_report_partial",
    "C55_states_partial",
    "C55_conditional_refuted"
   ],
   "note": "same programs: accesses reported in the blocks looked at are exactly those without permission, none is reported wrongly. Refuted: only blocks that are states are looked at, an access in a conditional is not reported whatever states are generated."
  },
  {
   "property": "C56",
   "status": "partial",
   "theorems": [
    "C56_cycles_partial",
    "C56_structured_partial",
    "C56_expression_refuted",
    "C56_expression_last_refuted",
    "C56_extra_cycle_refuted",
    "C56_before_refuted"
   ],
   "note": "every program of the modelled language, cycle by cycle with any inputs: same states and values as with assignments, hence as the source, when the runs of the program are settled (a variable is not mentioned before its declaration in its run; runs holding a declaration with a value do not start where states are merged; runs made only of declarations with expressions are the first one or follow a step and are not the last). Refuted: a block made only of declarations with expressions is skipped and the variable never receives its value, also at the end of a program; a declaration with a value may cost one more cycle than the assignment; used before its declaration in the same run a variable already holds the initial value and loses the writes made before."
  },
  {
   "property": "C57",
   "status": "partial",
   "theorems": [
    "C57_read_back",
    "C57_unambiguous",
    "C57_value_partial",
    "C57_chain",
    "C57_chain_right",
    "C57_number",
    "C57_and_reduction_refuted",
    "C57_or_reduction_refuted",
    "C57_xor_nor_refuted",
    "C57_xor_nand_refuted",
    "C57_xor_complement_refuted",
    "C57_chain_refuted",
    "C57_minus_refuted",
    "C57_and_and_refuted"
   ],
   "note": "every expression of the grammar: its text is read back as the same tree if and only if no binary operator is followed by a unary operator it joins with (a table of pairs) and no conditional operator follows another without parentheses; the reading is unique; chains of conditional operators are read from the right. a ^ ~b alone is read as another operator, same width, sign and value proved. Refuted, with different values: a & &b, a | |b, a ^ ~|b, a ^ ~&b, a ^ ~b & c, a ? b : c ? a : b (the source is grouped from the left). Refuted with the operators of SystemVerilog: a - -b and a && &b are not read at all."
  },
  {
   "property": "C58",
   "status": "partial",
   "theorems": [
    "C58_uncompressed",
    "C58_compressed",
    "C58_number_width",
    "C58_exact",
    "C58_text",
    "C58_palette_partial",
    "C58_saved_back",
    "C58_saved",
    "C58_uncompressed_safe",
    "C58_cut_short",
    "C58_compressed_ends",
    "C58_overrun_refuted",
    "C58_cut_short_refuted",
    "C58_unhandled_refuted",
    "C58_wide_refuted",
    "C58_order_refuted",
    "C58_orientation_refuted",
    "C58_first_entry_refuted",
    "C58_colors_refuted",
    "C58_saved_color_refuted",
    "C58_empty_rows_refuted",
    "C58_depth_zero_refuted"
   ],
   "note": "all formats, compressed or not, all sizes below 32768, all component depths: the table is the one of the pixels, its text is that of its numbers, numbers fit and are distinct at depth 8; the palette (components in the order of the file); saving then reading is the identity; uncompressed files of any content are read safely and completely; the reading of compressed ones always ends. Refuted: packets past the last pixel and compressed files cut short write outside of the array; unhandled types and depths give unset memory; rows of 32768 pixels or more give empty rows; 16 bits colors depend on an unspecified order of evaluation; orientation and first entry of the color map are ignored; palettes and images pack the same color differently; saved colors above 24 bits and empty first rows; depth 0."
  },
  {
   "property": "C59",
   "status": "partial",
   "theorems": [
    "C59_accepted",
    "C59_functions",
    "C59_input",
    "C59_output",
    "C59_output_first",
    "C59_on_write",
    "C59_on_read",
    "C59_memory",
    "C59_memory_kept",
    "C59_memory_read",
    "C59_signed_refuted",
    "C59_sign_lost_refuted",
    "C59_wide_refuted",
    "C59_trigger_function_refuted"
   ],
   "note": "exactly which units are accepted; one function per port with an address of its own; every sequence of accesses of the processor, from any state: values read from inputs, last value written to outputs on their bits, triggers in the exact cycle, bytes of the memory. The processor itself is not modelled: accesses are any sequence on its memory port. Refuted: signed inputs are read as unsigned numbers; ports of more than 32 bits are accepted and cut; the function given for a trigger has no effect."
  },
  {
   "property": "C60",
   "status": "partial",
   "theorems": [
    "C60_referred",
    "C60_own_module",
    "C60_memories",
    "C60_static",
    "C60_once",
    "C60_own_only",
    "C60_exported",
    "C60_formal",
    "C60_prefix",
    "C60_paths_refuted",
    "C60_memory_refuted",
    "C60_import_twice_refuted",
    "C60_append_twice_refuted",
    "C60_exported_formal_refuted"
   ],
   "note": "references are to modules of the output, with the text of the unit parsed for the instance, for every design whose items at top level have different names; names differ when the parts between underscores of the names of sibling instances (and of units at the top) do not start one another and avoid M, formal and mem. Refuted without it: instance b_c against instance c of b, memory y of i against instance i_mem_y. Refuted as well: importing a module twice or appending a file twice is accepted and writes it twice; memories of a unit both exported and formal are written twice."
  },
  {
   "property": "C61",
   "status": "partial",
   "theorems": [
    "C61_group",
    "C61_pin",
    "C61_above",
    "C61_declared",
    "C61_once",
    "C61_direction",
    "C61_outside_refuted",
    "C61_select_refuted",
    "C61_width_refuted",
    "C61_again_refuted"
   ],
   "note": "for groups whose bits are inside of their pins; widths of nets, directions of whole pins, single declarations for every accepted framework. Refuted: a bit outside of its pin leaves the group and moves the others, the bit of a pin of one bit is selected in a scalar, the width of a port is not compared to its pins, a second declaration is accepted and ignored. Directions of pins used by bits are refuted in C30"
  },
  {
   "property": "C62",
   "status": "partial",
   "theorems": [
    "C62_inputs",
    "C62_outputs",
    "C62_inouts",
    "C62_order",
    "C62_parameterized",
    "C62_known",
    "C62_plain_fresh",
    "C62_accepted",
    "C62_variables",
    "C62_twice_refuted",
    "C62_value_refuted",
    "C62_checks_refuted",
    "C62_order_refuted",
    "C62_same_name_refuted"
   ],
   "note": "the ports are exactly those declared, for every list accepted, with types, initial values and marks; order of inputs when no group is given a direction as a whole. Refuted: a member can have the name of a port before it or be listed twice, its initial value in the list is ignored, checks of initial values of inputs and inouts are not made on members of groups, the order of a group given a direction as a whole is the one of a hash map, two groups of the same name are accepted"
  },
  {
   "property": "C63",
   "status": "partial",
   "theorems": [
    "C63_identifiers",
    "C63_width",
    "C63_sign",
    "C63_legal",
    "C63_not_a_table",
    "C63_bound_input",
    "C63_member",
    "C63_member_part",
    "C63_place",
    "C63_typed",
    "C63_sized_refuted",
    "C63_part_sign_refuted",
    "C63_table_refuted",
    "C63_same_member_refuted",
    "C63_parameterized_refuted"
   ],
   "note": "width and sign of every access, which accesses are written and legal, place of members and parts. Refuted: the width of a part written as a sized number is read as the size of the number, a part of a signed variable is signed for the compiler only, tables are accepted without an index, a signed member is accepted when another member before it has the same name, members are not compared with the width of parameterized variables"
  },
  {
   "property": "C64",
   "status": "partial",
   "theorems": [
    "C64_declared",
    "C64_declared_split",
    "C64_output_declared",
    "C64_output_signal",
    "C64_only",
    "C64_macro",
    "C64_register",
    "C64_first",
    "C64_bound_and_assigned",
    "C64_total",
    "C64_output_register",
    "C64_output_assigned",
    "C64_constant",
    "C64_part_of_constant_refuted",
    "C64_sameas_refuted",
    "C64_reset",
    "C64_sameas_reset_refuted",
    "C64_table_not_driven",
    "C64_split_refuted"
   ],
   "note": "declarations of variables and outputs, signal used for each, assignment of the outputs of the module, which are registers, temporaries and macros, value of variables never assigned. Refuted: a variable never assigned that is read by parts in an always_before block (or the always block of a unit) has no value, a variable declared with sameas has the initial value of the other (constants, and registers initialized on reset), split inouts take the names of other variables. Not included: signals of instances, inputs, pipelines and state machines"
  }
 ]
}