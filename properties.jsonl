{"id": "C01", "title": "FSM of a structured algorithm behaves like the source text", "statement": "Compiling a goto-free algorithm (assignments, ++:, blocks, if/else, while, break, switch) gives a state machine which, started in its entry state with given variable values, executes exactly the instructions the source executes, in the same order and on the same values, and reaches the termination state with the same final variable values exactly when the source terminates.", "quantifier": "every structured program, every initial valuation of the variables, every number of clock cycles", "why_tests_cant": "the space of nested control structures and of data-dependent paths through them is infinite; a test only runs a few programs on a few inputs", "anchors": ["src/Algorithm.cpp: gatherBlock, splitOrContinueBlock, gatherWhile, gatherBreakLoop, gatherIfElse, gatherIfThen, gatherSwitchCase, writeStatelessBlockGraph, writeCombinationalStates"]}
{"id": "C02", "title": "One clock cycle of the emitted case arm = one walk of the control-flow graph up to the next state", "statement": "For each state of an algorithm, evaluating the Verilog statements emitted for that state's case arm performs exactly the instructions met when walking the control-flow graph from that state until the next state is reached, and leaves in the next-state register the code of that state (termination when the walk ends); in particular no instruction placed after an if/else or a switch runs in a cycle in which control left the conditional through a state change.", "quantifier": "every control-flow graph whose conditionals satisfy the (checked) join conditions, every state, every valuation, every branch outcome", "why_tests_cant": "the emission decides per conditional whether to continue, collapse or stop; wrong decisions only show on particular nestings and branch outcomes", "anchors": ["src/Algorithm.cpp: writeStatelessBlockGraph, writeCombinationalStates, preventIfElseCodeDup"]}
{"id": "C03", "title": "goto to a label inside a conditional branch only transfers control", "statement": "A goto to any label of the algorithm, including a label located inside an if/else branch or a case of a switch, does not change what the other paths of the program execute: reaching the label by falling into it from inside the branch still runs the code following the conditional only after the branch is finished.", "quantifier": "every program with labels and gotos, every position of the label", "why_tests_cant": "requires a universally quantified statement over label positions relative to conditionals and the order in which the compiler computes per-branch facts", "anchors": ["src/Algorithm.cpp: gatherIfElse, gatherIfThen, gatherSwitchCase, isStateLessGraph, gatherJump, resolveForwardJumpRefs, preventIfElseCodeDup, writeStatelessBlockGraph"]}
{"id": "C04", "title": "return ends an algorithm", "statement": "When an algorithm executes return, the algorithm goes to its termination state at the end of that cycle, and no later instruction of the algorithm executes.", "quantifier": "every algorithm body containing return, every path to it", "why_tests_cant": "the next-state register can be overwritten later in the same cycle on particular shapes only", "anchors": ["src/Algorithm.cpp: gatherReturnFrom, writeBlock (ReturnFromContext), writeStatelessBlockGraph"]}
{"id": "C05", "title": "State numbers are unique and every reachable state has one", "statement": "After state generation every state block reachable from the entry block has a number, numbers are pairwise distinct, contiguous from 1, never the termination number 0, all below the advertised number of states, and unreachable state blocks have none.", "quantifier": "every control-flow graph", "why_tests_cant": "graph shapes are unbounded; a collision or a missed state appears only for specific graphs", "anchors": ["src/Algorithm.cpp: renumberStates, entryState, terminationState, maxState"]}
{"id": "C06", "title": "The state register can hold every state code", "statement": "The width chosen for the state register of a machine suffices to store the code of every state, including termination, without two states sharing a code; in the one-hot encoding each code is a distinct single bit of the register.", "quantifier": "every number of states, both encodings", "why_tests_cant": "the boundary cases are at unbounded powers of two", "anchors": ["src/Algorithm.cpp: width, stateWidth, toFSMState, writeFlipFlopDeclarations"]}
{"id": "C07", "title": "Skipping empty states does not change behaviour and always finishes", "statement": "Replacing a jump to a state by a jump to the state it fast-forwards to only skips blocks that have no instruction, the target is reached from the source by unconditional moves, an explicit ++: is never skipped, and the compiler finishes on every program.", "quantifier": "every control-flow graph, every starting block", "why_tests_cant": "non-termination and wrong skips depend on chains of empty blocks of arbitrary length", "anchors": ["src/Algorithm.cpp: fastForward, blockIsEmpty, fastForwardToFSMState"]}
{"id": "C08", "title": "Pipelines neither lose, duplicate nor reorder data items", "statement": "In a pipeline whose stages hold state machines, whatever the number of cycles each stage spends on an item and whatever the cycles at which stages stall, the sequence of items leaving each stage is the sequence of items that entered it: no item is dropped, processed twice or overtakes another.", "quantifier": "every number of stages, every sequence of triggers, every stage duration, every stall schedule, every cycle count", "why_tests_cant": "concurrent schedule of stages and stalls is unbounded", "anchors": ["src/Algorithm.cpp: writeAsModule (pipeline stage triggers), writeStatelessBlockGraph (end of stage), writeFlipFlopDeclarations (stage ready)"]}
{"id": "C09", "title": "An algorithm reports done only when its pipelines are drained", "statement": "The done signal of an algorithm with pipelines is high only when its own state machine is in the termination state and every pipeline stage is idle with no item waiting between stages; so every item fed to the pipelines before done has left the last stage.", "quantifier": "every reachable state of the algorithm and of its pipelines, every schedule", "why_tests_cant": "needs an invariant over all schedules of stages", "anchors": ["src/Algorithm.cpp: writeAsModule (done signal)"]}
{"id": "C10", "title": "Pipeline stages are emitted in an order consistent with ^= and v=", "statement": "If the compiler accepts a pipeline, the order in which the stages are evaluated is a permutation of the stages in which every stage reading a variable assigned with ^= by a later stage, or v= by an earlier stage, is evaluated after the assigning stage; and the compiler rejects the pipeline only if no such order exists.", "quantifier": "every number of stages, every set of reads and ^=/v= writes", "why_tests_cant": "the constraint graphs are arbitrary", "anchors": ["src/Algorithm.cpp: orderPipelineStages"]}
{"id": "C11", "title": "A stage of a pipeline sees the value written for its own data item", "statement": "In a one-cycle-per-stage pipeline, a variable that is written in stage i and read in a later stage j is observed in stage j, j-i cycles later, with the value stage i (or the last writing stage in between) gave it for the same item, independently of the items in the other stages.", "quantifier": "every pipeline depth, every pattern of reads and writes per stage, every input stream, every cycle", "why_tests_cant": "the number of stages, variables and cycles is unbounded", "anchors": ["src/Algorithm.cpp: gatherPipeline (trickling), tricklingVIOName, writeStatelessPipeline, writeVarFlipFlopUpdate"]}
{"id": "C12", "title": "Registers are kept whenever a value must survive a clock edge", "statement": "If on some execution a variable is read in a cycle before being written in that cycle (so that its value comes from an earlier cycle), the usage analysis records a use of the register output for that variable, hence the variable is not demoted to a combinational temporary.", "quantifier": "every structured combinational chain of assignments, conditionals and switches, every branch outcome, every variable", "why_tests_cant": "the analysis merges information over all branches; an omission appears on particular nestings only", "anchors": ["src/Algorithm.cpp: updateFFUsage, combineUsageInto, clearNoLatchFFUsage, writeStatelessBlockGraph, writeAsModule (demotion)"]}
{"id": "C13", "title": "Variables whose value enters a block are recorded as read there", "statement": "For every state, if some path from the start of the state to an instruction reads a variable with no write to it on that path, the variable is in the state's set of incoming reads; hence a variable classified as temporary never carries a value from one cycle to the next.", "quantifier": "every control-flow graph, every path", "why_tests_cant": "path-sensitive property over arbitrary graphs", "anchors": ["src/Algorithm.cpp: determineAccess, determineUsage"]}
{"id": "C14", "title": "Every read sees the last write of the cycle, else the register", "statement": "An expression reading a variable evaluates to the value most recently assigned to it on the executed path of the current cycle, or to its value at the beginning of the cycle if it was not assigned on that path.", "quantifier": "every chain of assignments and nested conditionals, every branch outcome", "why_tests_cant": "the choice between the D and Q side of a register is made from static dependency sets merged over branches", "anchors": ["src/Algorithm.cpp: rewriteIdentifier, mergeDependenciesInto, writeStatelessBlockGraph"]}
{"id": "C15", "title": "Combinational loops are detected", "statement": "The dependency sets computed along a chain of assignments contain every variable a written variable combinationally depends on, transitively, and an assignment is rejected exactly when it makes a variable depend combinationally on itself through register outputs that were not cut.", "quantifier": "every sequence of assignments, every read set", "why_tests_cant": "transitive closure over arbitrary long chains", "anchors": ["src/Algorithm.cpp: dependencyClosure, updateAndCheckDependencies"]}
{"id": "C16", "title": "Subroutines return to their caller", "statement": "When a subroutine called from several places (possibly from other subroutines, never recursively) executes return, control resumes at the state following the call that started it, for any nesting of calls.", "quantifier": "every acyclic call graph, every interleaving of calls and returns, every nesting depth", "why_tests_cant": "nesting depth and call histories are unbounded", "anchors": ["src/Algorithm.cpp: analyzeSubroutineCalls, writeStatelessBlockGraph (goto_and_return_to, return_from)"]}
{"id": "C17", "title": "Calls to algorithms run exactly once and are joined after completion", "statement": "A call (..) <- alg <- (..) starts the called algorithm exactly once, and the caller continues only after the called algorithm has terminated that execution, with its final outputs.", "quantifier": "every duration of the called algorithm, every calling history", "why_tests_cant": "cycle-level protocol over unbounded executions", "anchors": ["src/Algorithm.cpp: writeAlgorithmCall, writeAlgorithmReadback, gatherJoinExec, writeFlipFlopUpdates, fsmNextState"]}
{"id": "C18", "title": "Inferred expression widths are large enough", "statement": "The bit width the linter assigns to an expression is enough to hold its value, for additions, subtractions, products, comparisons, bitwise operators, ternaries and concatenations (including replicated concatenations {N{..}}), so an assignment narrower than needed is always reported.", "quantifier": "every expression, every operand widths and values", "why_tests_cant": "unbounded expression trees and values", "anchors": ["src/ExpressionLinter.cpp: typeNfo, checkAndApplyOperator, checkAndApplyUnaryOperator, lintAssignment"]}
{"id": "C19", "title": "Errors are reported at the source line that produced the offending text", "statement": "Mapping a line of preprocessed output back to the sources gives the file and line whose processing emitted that line.", "quantifier": "every sequence of emitted chunks (single or multi-line) and every output line", "why_tests_cant": "sequence lengths are unbounded and the map is searched by dichotomy", "anchors": ["src/LuaPreProcessor.cpp: addingLines, lineAfterToFileAndLineBefore_search, lineAfterToFileAndLineBefore"]}
{"id": "C20", "title": "Include files: cycles are rejected, everything else is expanded", "statement": "Assembling a source expands every $include exactly where it is written, rejects precisely the include graphs with a cycle reachable from the source, and terminates on every finite set of files.", "quantifier": "every finite set of files and include statements", "why_tests_cant": "include graphs are unbounded", "anchors": ["src/LuaPreProcessor.cpp: assembleSource"]}
{"id": "C21", "title": "Comments are skipped exactly", "statement": "When the preprocessor skips a comment it resumes right after the end of that comment: after the end of line for //, after the first closing */ for /* ... */; no code is swallowed.", "quantifier": "every source text", "why_tests_cant": "texts are unbounded; the failing ones contain particular character sequences", "anchors": ["src/LuaPreProcessor.cpp: jumpOverComment, jumpOverNestedBlocks"]}
{"id": "C22", "title": "clog2 and memory address widths cover all entries", "statement": "The preprocessor function clog2(n) is the smallest w with 2^w >= n for n >= 1, and the address port of a memory of n entries is wide enough to address each of its entries.", "quantifier": "every n >= 1", "why_tests_cant": "unbounded n", "anchors": ["src/Utils.cpp: justHigherPow2", "src/Algorithm.cpp: gatherDeclarationMemory, memory address width", "src/LuaPreProcessor.cpp: clog2"]}
{"id": "C23", "title": "Bitfield members partition the bitfield", "statement": "The bit ranges of the members of a bitfield are pairwise disjoint and together cover exactly its width, the first member being the most significant; and the initializer of a bitfield gives each member the value written for it.", "quantifier": "every list of members and widths, every member, every value", "why_tests_cant": "unbounded number of members", "anchors": ["src/Algorithm.cpp: bitfieldWidth, bitfieldMemberTypeAndOffset, gatherBitfieldValue"]}
{"id": "C24", "title": "Bit-range bindings connect each bit to its own source", "statement": "When several instance outputs are bound to bit ranges of a variable, reading bit i of the variable yields the bit of the output bound there, unbound bits are zero, and two bindings claiming the same bit are rejected.", "quantifier": "every variable width and every set of bit-range bindings", "why_tests_cant": "unbounded sets of ranges", "anchors": ["src/Algorithm.cpp: rewriteBinding, splitBitBindings, splitBinding"]}
{"id": "C25", "title": "Overlapping bit-range bindings of an inout are rejected", "statement": "Two instances bound to overlapping bit ranges of the same inout are reported as an error, and disjoint ranges are accepted.", "quantifier": "every set of bit ranges", "why_tests_cant": "unbounded sets of ranges", "anchors": ["src/Algorithm.cpp: determineBlueprintBoundVIO"]}
{"id": "C26", "title": "Tables and memories have exactly the declared content", "statement": "A table or memory declared with size n and an initializer list of k <= n values contains the listed values in order followed by the pad value if one is given; lists that are too long, or too short without padding, are rejected; a table with no explicit size takes the size of its list; a string initializes a table with its characters, null terminated, remaining entries being zero.", "quantifier": "every size, every initializer list, with and without pad", "why_tests_cant": "unbounded sizes", "anchors": ["src/Algorithm.cpp: readInitList, gatherDeclarationMemory, gatherDeclarationTable"]}
{"id": "C27", "title": "Constant bit accesses stay inside the variable", "statement": "An accepted constant bit-field or part-select access designates a bit range inside the accessed variable, and nesting a part-select in a bitfield member adds the offsets so that the range stays inside the member.", "quantifier": "every bitfield layout, member, offset and width", "why_tests_cant": "unbounded layouts", "anchors": ["src/Algorithm.cpp: determineAccessConstBitRange, determineBitfieldAccessTypeAndWidth, determinePartSelectTypeAndWidth"]}
{"id": "C28", "title": "Call arguments reach the matching formal", "statement": "Matching a call's argument list against the inputs of the callee gives each scalar formal the argument in its position, expands a group argument into its members each matched to the formal with that member name, and rejects lists of the wrong length.", "quantifier": "every formal list, every argument list, every group", "why_tests_cant": "unbounded lists", "anchors": ["src/Algorithm.cpp: getCallParams, matchCallParams, memberPostfix, memberPrefix"]}
{"id": "C29", "title": "RISC-V peripherals: the C address selects exactly its own line", "statement": "For an accepted riscv declaration, the address the generated C header uses for the i-th input/output sets, in the hardware address decoder, the external bit and the select bit of line i and of no other line, and lies outside of the memory.", "quantifier": "every memory size (bytes, multiple of 4), every number of inputs/outputs", "why_tests_cant": "unbounded sizes and numbers of IOs", "anchors": ["src/RISCVSynthesizer.cpp: generateCHeader, generateSiliceCode, memorySize"]}
{"id": "C30", "title": "Top level pins are used at most once", "statement": "If the compiler accepts a top level unit, no bit of a physical pin is connected to two ports of the design.", "quantifier": "every set of ports and pin groups", "why_tests_cant": "unbounded sets of pins and ports, and the outcome depends on the order of declarations", "anchors": ["src/SiliceCompiler.cpp: addTopModulePort, writeBody"]}
{"id": "C31", "title": "Each requested formal mode is kept, once", "statement": "The formal verification modes recorded for a unit are the modes listed by the user, each exactly once, with bmc first and cover last.", "quantifier": "every list of modes, with repetitions, in any order", "why_tests_cant": "the order and multiplicity of modes is unbounded and the standard library calls have preconditions", "anchors": ["src/Algorithm.cpp: init"]}
{"id": "C32", "title": "#stableinput / stable assumptions name existing signals", "statement": "Every signal the compiler names in an emitted stability assumption is an input the module declares.", "quantifier": "every input declaration including groups and interfaces", "why_tests_cant": "requires quantification over group definitions", "anchors": ["src/Algorithm.cpp: gatherStableinputCheck, writeFlipFlopUpdates"]}
{"id": "C33", "title": "Type-of chains (sameas) resolve", "statement": "Looking up the root of a sameas chain always finishes, on an existing variable, and gives it the type of the end of the chain.", "quantifier": "every set of declarations, every chain length", "why_tests_cant": "chain length is unbounded and cycles are possible", "anchors": ["src/Algorithm.cpp: findSameAsRoot, gatherTypeNfo"]}
{"id": "C34", "title": "Verilog templates are instantiated by exact substitution", "statement": "Instantiating a Verilog template replaces each %NAME% marker by the value given for NAME and copies all the other text unchanged.", "quantifier": "every template text and every replacement map", "why_tests_cant": "unbounded texts", "anchors": ["src/VerilogTemplate.cpp: fromString, load"]}
{"id": "C35", "title": "Registered outputs and variables follow the reset/run protocol", "statement": "At every clock edge a register takes its initial value if reset is active (or, in a callable algorithm, while its run signal is low) unless it is declared uninitialized or with a startup initializer, and otherwise takes the value computed for it during the cycle; after reset an autorun algorithm begins in its entry state with its initial values, and a callable one stays terminated until it is called and then begins in its entry state with its initial values.", "quantifier": "every input history, every cycle", "why_tests_cant": "unbounded histories", "anchors": ["src/Algorithm.cpp: writeVarFlipFlopUpdate, writeFlipFlopUpdates, fsmNextState"]}
{"id": "C36", "title": "Delayed always assignments (::=) delay by exactly one cycle", "statement": "A variable assigned with ::= has, at each cycle, the value its expression had at the previous cycle (its initial value on the first).", "quantifier": "every input stream, every cycle", "why_tests_cant": "unbounded streams", "anchors": ["src/Algorithm.cpp: writeBlock (ALWSASSIGNDBL), delayedName"]}
{"id": "C37", "title": "Sized literals keep their value", "statement": "A literal accepted by the compiler denotes in the generated Verilog the same width, base and value as in the source, negation included.", "quantifier": "every literal text", "why_tests_cant": "unbounded texts", "anchors": ["src/TypesAndConsts.cpp: splitNumber, numberTypeInfo, isNumber", "src/Algorithm.cpp: rewriteNumber"]}
{"id": "C38", "title": "Declared names never collide in the generated module", "statement": "Two different variables visible to the user (in different blocks, subroutines or pipelines) are given different names in the generated Verilog.", "quantifier": "every set of declarations, every identifier", "why_tests_cant": "identifiers are arbitrary strings; collisions happen for crafted names", "anchors": ["src/Algorithm.cpp: blockVIOName, addVar, insertVar, tricklingVIOName, subroutineVIOName, isIdentifierAvailable"]}
{"id": "C39", "title": "Width and init of parameterized ports come from the instantiation", "statement": "The width, sign and initial value used for a parameterized input/output are those of the instance's binding unless overridden by a specialization, and a sameas port has the width of the port it refers to.", "quantifier": "every instantiation context, every chain of sameas", "why_tests_cant": "unbounded contexts", "anchors": ["src/Blueprint.cpp: varBitRange, varBitWidth, varInitValue, varType", "src/Algorithm.cpp: makeBlueprintInstantiationContext"]}
{"id": "C40", "title": "Preprocessor parameters are restored after each unit", "statement": "Generating a unit's source with instantiation parameters leaves every Lua global with the value it had before, whatever the parameters are, so that instantiations do not influence each other.", "quantifier": "every set of parameters and every prior environment, any sequence of instantiations", "why_tests_cant": "histories of instantiations are unbounded", "anchors": ["src/LuaPreProcessor.cpp: executeLuaString, generateUnitSource"]}
{"id": "C41", "title": "Which algorithms compile", "statement": "An algorithm whose breaks are inside loops, whose labels are declared once and whose gotos name declared labels compiles: the compiler terminates, no internal assertion fails, and a state machine is written. Otherwise it is rejected.", "quantifier": "every nesting of blocks, conditionals, switches, loops, labels, gotos, steps, waits", "why_tests_cant": "programs are unbounded and the failures are assertions or endless searches on shapes no test has", "anchors": ["src/Algorithm.cpp: gather, resolveForwardJumpRefs, generateStates, renumberStates, preventIfElseCodeDup, fastForward, writeStatelessBlockGraph"]}
{"id": "C42", "title": "A circuitry instance is its body on the given variables", "statement": "Instantiating a circuitry behaves as its body pasted in place: inputs and outputs stand for the variables given, an expression given as input has the value it has at that point of the program, local variables are private, and nothing else is modified. With distinct variables given, the instance computes what the circuitry computes alone.", "quantifier": "every circuitry, nesting of instances, choice of names for inputs, outputs and variables, and every state of the variables", "why_tests_cant": "names, nestings and values are unbounded; the failures need a coincidence of names or of order no test has", "anchors": ["src/Algorithm.cpp: gatherCircuitryInst, getIdentifiers, getCallParams, translateVIOName, rewriteExpression, addTemporary, addVar"]}
{"id": "C43", "title": "Ports of an instance are connected as written", "statement": "An input of an instance reads what the source binds it to, else with <:auto:> what has its name, else a variable of its own; a variable bound to an output reads this output and nothing else drives it; bindings in the wrong direction are rejected; nothing written is silently ignored, and the order of declarations does not matter.", "quantifier": "every set of instances, ports, bindings, groups and names", "why_tests_cant": "combinations of names, groups and instances are unbounded; the failures are silent", "anchors": ["src/Algorithm.cpp: getBindings, resolveInstancedBlueprintBindingDirections, autobindInstancedBlueprint, checkBlueprintsBindings, updateAccessFromBinding, determineBlueprintBoundVIO, analyzeInstancedBlueprintInputs, rewriteIdentifier, writeAsModule"]}
{"id": "C44", "title": "What the formal tools check is what the program says", "statement": "For an algorithm under formal verification, the executions considered by the tools are those of the algorithm started as documented, restricted by its assumptions: an assertion false at its place in the program in some of them is reported, and nothing else is. #cover, #assertstable and #wasin concern the state they are written in, and checks do not change what the algorithm does.", "quantifier": "every program, every sequence of inputs, reset and run, every initial content of the registers", "why_tests_cant": "a check that is never made, or assumptions that exclude all executions, make every test pass", "anchors": ["src/Algorithm.cpp: writeAssert, writeAssume, writeRestrict, writeCover, gatherPastCheck, gatherStableCheck, hasNoFSM, writeFlipFlopUpdates, writeCombinationalStates, writeAsModule"]}
{"id": "C45", "title": "A memory returns what was written", "statement": "An access to a block memory made during a cycle (the previous one when it is declared delayed) concerns the entry it gives the address of: at the next cycle the data read is the value written last to this entry by an earlier cycle, through any port, else its initial value; a write mask selects the parts that change; simulation and hardware agree; an accepted declaration gives a memory.", "quantifier": "every template, size, width, configuration, program, and every sequence of accesses and clock edges of the two ports", "why_tests_cant": "sequences of accesses and contents are unbounded; the failures need a read during a write, an unusual width or configuration", "anchors": ["src/Algorithm.cpp: gatherDeclarationMemory, prepareModuleMemoryTemplateReplacements, writeAsModule; frameworks/templates"]}
{"id": "C46", "title": "Clock, reset, run and done reach every unit that uses them", "statement": "In a hierarchy of units, instances connect exactly the control ports of the modules they instantiate, every control signal used in a module exists in it, and one cycle of reset at the top initializes every register and state machine of every unit at any depth, unless a unit or an instance is explicitly given another reset.", "quantifier": "every hierarchy of units, imported modules and processors, every choice of resets and clocks, every content of the registers", "why_tests_cant": "hierarchies are unbounded; a missing connection leaves a signal floating and shows only for some contents at power up", "anchors": ["src/Algorithm.cpp: requiresReset, hasNoFSM, isNotCallable, writeFlipFlopUpdates, writeAssert, rewriteIdentifier, gatherDeclarationInstance, writeAsModule"]}
{"id": "C47", "title": "Temporaries turned into macros keep their values", "statement": "A variable which never needs its previous value may be written as a Verilog macro instead of a signal: each macro is defined once, expansion ends, and every read has the value, the width and the sign the variable would have, in every cycle and every context; no illegal text is produced.", "quantifier": "every program, every set of variables, every assigned expression and width, every run", "why_tests_cant": "which variables become macros depends on the whole program; a macro reading a signal assigned later, a lost carry or a sign error shows only for some values", "anchors": ["src/Algorithm.cpp: vioAsDefine, isADefine, rewriteIdentifier, updateUsageStableInCycle, combineUsageInto, isPartialAccess, writeAssignement, writeAsModule; src/Utils.cpp: justHigherPow2"]}
{"id": "C48", "title": "A tracked expression has the value of its expression", "statement": "A variable declared with <: and an expression reads, everywhere and at any moment of a cycle, as this expression on the current values of its variables; declared with <:: it reads as the expression on the values of the previous cycle. Programs that would make a tracker depend on itself or change its expression after it has been read are rejected, others are accepted, and an accepted program has exactly one behaviour.", "quantifier": "every set of trackers, every program, state and run", "why_tests_cant": "loops and assignments after a read depend on the whole program; in simulation a loop may settle by chance", "anchors": ["src/Algorithm.cpp: gatherDeclarationWire, writeWireAssignements, updateAndCheckDependencies, dependencyClosure, rewriteIdentifier, writeBlock, writeAsModule; src/ExpressionLinter.cpp: lintWireAssignment"]}
{"id": "C49", "title": "Instructions take the documented number of cycles", "statement": "An algorithm takes the number of cycles given by the rules of the documentation: none for chains of assignments and conditionals, one for each ++:, one to enter a loop and one per iteration, none to leave it, one after a conditional whose branches need cycles when both reach what follows, at least one to wait for an instance; in each cycle it has executed what the source executes in that cycle.", "quantifier": "every program without goto, every input in every cycle, every number of cycles", "why_tests_cant": "programs nest without bound, and the states after conditionals are decided by a fixpoint on the whole graph; a lost or added cycle is visible only in the paths through it", "anchors": ["src/Algorithm.cpp: gatherBlock, gatherWhile, gatherIfElse, gatherIfThen, isStateLessGraph, preventIfElseCodeDup, renumberStates, generateStates, fastForward; learn-silice/Documentation.md: Execution flow and cycle utilization rules"]}
{"id": "C50", "title": "Values go through the ports of an instance with the documented latency", "statement": "A value assigned to a variable of the parent reaches an output of an instance after the number of cycles given by the documentation: with <: one cycle for output and none for output!, with <:: two and one; the dot syntax is like <: unless the unit is callable or <reginputs> is given, then it is like <::. The instance sees every value assigned, once, in order, and instances bound one after another add up their latencies.", "quantifier": "every parent, set of instances, unit, run and cycle", "why_tests_cant": "units have state and inputs change every cycle; a cycle too early or too late only shows for some sequences of values", "anchors": ["src/Algorithm.cpp: writeAsModule (instances), writeOutputAssignments, determineBlueprintBoundVIO, createInstancedBlueprintInputOutputVars, isNotCallable; learn-silice/AlgoInOuts.md"]}
{"id": "C51", "title": "Source text reaches the compiler as written, with its Lua parts in place", "statement": "The text given to the compiler after the preprocessor is, line by line, the text of the source: words, strings and escapes are as written, comments are removed, each $expression$ is replaced by its value, lines starting with $$ run in their place in the order of the source, and the line numbers recorded for errors are those of the source.", "quantifier": "every source text, every Lua expression and value", "why_tests_cant": "the text goes through generated Lua strings; what breaks is a particular sequence of quotes, backslashes, slashes, comments and insertions", "anchors": ["src/LuaPreProcessor.cpp: luaCodeSplit, jumpOverString, jumpOverComment, luaProtectString, lua_output"]}
{"id": "C52", "title": "The preprocessor isolates each unit of a source", "statement": "Each unit (unit, algorithm, circuitry) of a source is found with its name, its ports and its exact text, whatever strings, comments and preprocessor code it contains, and with conditionals and loops of the preprocessor used freely in its ports and in its body; the Lua program has two functions per unit, made of its ports and of its text, and the rest of the source around them, in order and with the right line numbers.", "quantifier": "every source, every number of units, every nesting of blocks, conditionals and loops", "why_tests_cant": "braces are counted along one path through conditionals that nest without bound; a wrong end moves text from one unit to another", "anchors": ["src/LuaPreProcessor.cpp: decomposeSource, jumpOverUnit, jumpOverNestedBlocks, processLuaLine, LuaCodePath, nameToLua, prepareCode; learn-silice/Documentation.md: Preprocessor constraints"]}
{"id": "C53", "title": "Pipeline operators: ^= is seen by all stages, v= by the following ones, vv= by none before the next cycle", "statement": "A variable assigned with ^= in a stage has in the same cycle its new value in all stages; with v=, in the following stages, the previous ones seeing it in the next cycle; with vv=, all other stages see it in the next cycle. Variables assigned with = keep going down the stages with their item. Contradictory requirements are reported as errors.", "quantifier": "every pipeline, every mix of operators under conditionals, every cycle, every content of the registers", "why_tests_cant": "the stages are reordered and the side of each register that is read depends on the stages already written; the number of orders and mixes is unbounded", "anchors": ["src/Algorithm.cpp: gatherPipeline, determinePipelineSpecificAssignments, orderPipelineStages, writeStatelessPipeline, writeAssignement; learn-silice/Documentation.md: Special assignment operators; tests/pipeline_ops.si"]}
{"id": "C54", "title": "Names follow lexical scope", "statement": "Each name used in an algorithm or a unit designates the innermost declaration that encloses it, or a port; declarations of blocks, cases, loops and subroutines are not visible outside, those of a pipeline stage are visible in the stages that follow; a declaration that hides another is reported; a program whose names are all declared is accepted and one that uses an unknown or out of scope name is not.", "quantifier": "every nesting of blocks, conditionals, switches, loops, labels, jumps, repeats, subroutines and pipelines, every choice of names", "why_tests_cant": "scopes are copies of rewriting rules passed between blocks, resolved after the whole source is read; what breaks is a particular nesting and reuse of names", "anchors": ["src/Algorithm.cpp: addBlock, insertVar, addVar, isIdentifierAvailable, translateVIOName, rewriteIdentifier, gatherBlock, gatherWhile, gatherIfElse, gatherIfThen, gatherSwitchCase, gatherRepeatBlock, gatherSubroutine, concatenatePipeline, gatherPipeline, checkPermissions"]}
{"id": "C55", "title": "A subroutine only manipulates the variables it was given permission for", "statement": "Within a subroutine, every read of a variable or port that is neither local nor given read permission and every write of one that is neither local nor given write permission is reported, and no other access is.", "quantifier": "every program, every subroutine, every set of permissions, every position of the access", "why_tests_cant": "permissions are compared after renaming, in the blocks where the access happens; an access that escapes depends on the control flow around it", "anchors": ["src/Algorithm.cpp: gatherSubroutine, insertVar, determineVIOAccess, checkPermissions; learn-silice/Documentation.md: Subroutines, permissions"]}
{"id": "C56", "title": "Declaring a variable with a value assigns it where and when the declaration is reached", "statement": "A variable declared with a value or an expression inside the body of an algorithm holds this value after its declaration, each time the declaration is reached, in the same cycle as an assignment written at the same place would give it.", "quantifier": "every program with declarations in blocks, branches, cases, iterations, before and after steps; every initial value, every input at every cycle", "why_tests_cant": "declarations with a value are not instructions: they are written first in the block and change which states may be skipped, declarations with an expression do not prevent a block from being skipped; the effect depends on what surrounds them", "anchors": ["src/Algorithm.cpp: insertVar, gatherVarNfo, gatherDeclarationVar, blockIsEmpty, fastForward, writeBlock, writeVarInits; learn-silice/Documentation.md: Variables"]}
{"id": "C57", "title": "An expression means in the generated Verilog what it means in the source", "statement": "The text written for an expression is read by a Verilog tool as the same expression: same operators applied to the same operands, hence same value.", "quantifier": "every expression of the grammar: operators, conditional operators, concatenations, replications, accesses to tables, bits and fields, conversions, numbers; every value of the variables", "why_tests_cant": "the text of the operators is written with no space between them and is split again by another lexer with other operators, then parsed with other precedences and associativity; which of the pairs of operators are at risk depends on all the combinations", "anchors": ["antlr/silice.g4: expression_0 to atom; src/Algorithm.cpp: rewriteExpression, rewriteIdentifier, rewriteNumber, writeAccess; src/ExpressionLinter.cpp: typeNfo"]}
{"id": "C58", "title": "Images and palettes put in tables keep their pixels", "statement": "The table obtained from an image file in the preprocessor has one row per row of pixels and, for each pixel, the number packing its components with the depth asked for; the palette is given likewise; an image saved with a palette is read back as the same table and palette; no file makes the compiler read or write outside of its arrays.", "quantifier": "every image: types, depths, sizes, compressed or not, every color map, every component depth; every content of file", "why_tests_cant": "pixels, packets and headers can be anything, including what breaks the reader: packets crossing rows or the end of the image, files cut short, sizes that change sign", "anchors": ["src/tga.cpp: ReadTGAFile, ReadTGA8bits to ReadTGAgray16bitsRLE, GetTextureInfo; src/LuaPreProcessor.cpp: lua_get_image_as_table, lua_write_image_in_table, lua_get_palette_as_table, lua_write_palette_in_table, lua_save_table_as_image_with_palette"]}
{"id": "C59", "title": "Programs of RISC-V units exchange values with their inputs and outputs", "statement": "In a riscv unit, calling the C function of an input returns the value of the input, calling that of an output gives the value to the output and to no other one, on_x outputs are high exactly for the cycles of accesses to x, and the rest of the memory behaves as a memory.", "quantifier": "every list of inputs and outputs, memory size, and sequence of accesses made by the processor, every value of the inputs at each cycle", "why_tests_cant": "accesses of any length and order, interleaved with memory accesses, any number of ports and widths", "anchors": ["src/RISCVSynthesizer.cpp: gather, isAccessTrigger, generateCHeader, generateSiliceCode; frameworks/libraries/riscv/ice-v/riscv-soc.si"]}
{"id": "C60", "title": "Each instance gets the module written for it", "statement": "In the Verilog written, every cell refers to a module of the output, an instance of a unit refers to the module made from the unit as parsed for this instance, each memory to its own module, instances of a static blueprint to the same module, and no two modules written have the same name.", "quantifier": "every tree of instances with any names, memories, static units, imported and appended Verilog files, riscv units, formal units", "why_tests_cant": "trees of any depth, names chosen anywhere in the design meet in one flat space of module names", "anchors": ["src/Algorithm.cpp: instantiateBlueprint, makeBlueprintInstantiationContext, memoryModuleName, writeAsModule, writeInstanciatedBlueprints; src/Algorithm.h, Module.h, RISCVSynthesizer.h: moduleName; src/SiliceCompiler.cpp: gatherBody, writeBody, writeUnit, writeFormalTests, run"]}
{"id": "C61", "title": "Bits of ports reach the pins the framework gives", "statement": "In the top module written for a framework, bit k of a port of the unit is connected to the bit of the pin found by counting k bits from the end of the list of pins the framework gives for this port (or to bit k of the pin of that name), skipped bits go to wires of their own, and each pin is in the signature once, with the width of the framework and the direction of the port using it whole.", "quantifier": "every list of pins and groups of pins in a framework, every list of ports, every bit", "why_tests_cant": "the board is outside of simulations, the order of bits of a group is only seen with the real device, for each group", "anchors": ["src/LuaPreProcessor.cpp: lua_pin_index, lua_pin_newindex, pinsUsedByIOPort, pinWidth; src/SiliceCompiler.cpp: addTopModulePort, verilogTopModuleSignature, verilogMainGlue, writeBody"]}
{"id": "C62", "title": "Groups and interfaces bring their members as declared", "statement": "The ports of a unit are exactly those its list declares: each plain port, each member listed for a group (or each member of a group given a direction), each member of an interface, once per declaration, named group_member, with the direction and combinational marks written, the type and initial value of the group (or the type of the instantiation for interfaces), in the order written. A group declared in the body gives one variable for each member. Names used for two ports are an error.", "quantifier": "every list of ports, every definition of groups and interfaces, every name", "why_tests_cant": "lists, groups and interfaces of any size, with names that meet between plain ports and members", "anchors": ["src/Algorithm.cpp: gatherVarNfo, gatherTypeNfo, gatherInputNfo, gatherOutputNfo, gatherInoutNfo, gatherIoDef, gatherIoGroup, gatherIoInterface, gatherIOs, gatherDeclarationGroup, var_nfo_copy; src/Blueprint.cpp: getVIODefinition"]}
{"id": "C63", "title": "An access has the type the compiler gives it", "statement": "For every access (a variable, a member of a group, an input or output of an instance, an entry of a table, a member of a bitfield, a part of any of these), the width and the sign that the compiler uses for its checks and for what it declares are those of the Verilog expression written for the access. Every access given a type is written and is legal Verilog, for reads and for assignments, and an access that has no meaning is an error: an index on what is not a table, an output of an instance that is assigned, an input that is bound, an unknown member.", "quantifier": "every unit (variables, instances, groups, bitfields), every access, reads and writes", "why_tests_cant": "kinds of accesses nested in all ways, with declarations of any type, width and size", "anchors": ["src/Algorithm.cpp: determineAccessTypeAndWidth, determinePartSelectTypeAndWidth, determineBitfieldAccessTypeAndWidth, determineTableAccessTypeAndWidth, determineIOAccessTypeAndWidth, determineIdentifierTypeAndWidth, determineVIOTypeWidthAndTableSize, writeAccess, writePartSelect, writeBitfieldAccess, writeTableAccess, writeIOAccess, verifyMemberGroup, verifyMemberBitfield, createInstancedBlueprintInputOutputVars"]}
{"id": "C64", "title": "Every signal used is declared once, and constants have their value", "statement": "In the module written for a unit, the signal used for a variable or an output that is accessed (register, next value, temporary, constant, wire) is declared exactly once, with the type and the number of entries declared in the source, and nothing else is declared for variables and outputs. A macro is used only for a variable assigned once and before it is read. A variable that is never assigned has, in every cycle, the value given in its declaration.", "quantifier": "every unit (variables, outputs, tables), every pattern of reads and writes, every result of the first writing pass", "why_tests_cant": "combinations of declarations and accesses, with the two passes of the compiler; which signal is chosen depends on the whole unit", "anchors": ["src/Algorithm.cpp: determineUsage, rewriteIdentifier, isADefine, couldBeADefine, writeConstDeclarations, writeTempDeclarations, writeWireDeclarations, writeFlipFlopDeclarations, writeCombinationalAlwaysPre, writeAsModule, updateFFUsage; src/Blueprint.cpp: varInitValue"]}
