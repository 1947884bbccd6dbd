# Machine-checked model of parts of the Silice compiler

Everything is Coq 8.16.1, standard library only, in `rocq/theories`. The C++ of
`/repo` was read as text; nothing was executed. Properties: `properties.jsonl`.
Status per property: `MANIFEST.json`. Seeded errors: `seeded/LOG.jsonl`.

## How the development is organised

* `*Model.v`: executable Gallina transcription of the C++ functions. Each definition
  cites file and lines and says what is simplified. No proofs.
* `*Props.v`: the property theorems (`C<nn>_...`), each followed by `Print Assumptions`,
  with `Example`s showing that the hypotheses are met by concrete non-trivial cases.
* the other files: lemmas.

Conventions. Loops become structural recursion, folds, or recursion on fuel; running
out of fuel is a distinct result (`None` or an error constructor), never a normal value,
and theorems hold for every fuel with which the function ends. C++ undefined behaviour,
`sl_assert` failures and `reportError` are distinct outcomes. `int` is `Z` or `nat` unless
the property is about overflow. Verilog expressions over registers have values in `Z` with
arbitrary operators in the state machine models (the width of values is the subject of
C18, C22, C26, C27, C37, C39).

A claim that is false of the faithful model is stated as `..._refuted`, with a witness
checked by computation, next to the strongest positive statement that holds.
`..._partial`: a positive statement that needs a restriction; the comment says which.

## What is modelled and how it is proved

| id | model | proof |
|----|-------|-------|
| C01 | `FsmModel`: source statements, block graph (`gather*`), forward jumps, numbering, `preventIfElseCodeDup`, writing of the states; Verilog cycle semantics | layout relation between statements and graph, regions, simulation cycle by cycle, then equivalence with a big-step semantics of the source |
| C02 | same | each cycle of the emitted code is a walk in the graph (induction on the emission) |
| C03 | same, with labels and gotos | C01's simulation under "no goto enters a branch without cycle boundary"; two witnesses otherwise |
| C04 | same, `return` | theorem that `return` has no effect in an algorithm, and a witness |
| C05 | `renumberStates` | breadth-first traversal invariant, for every graph |
| C06 | `WidthModel`: width of the state register, codes of the states, binary and one-hot | arithmetic; int overflow beyond 31 one-hot states |
| C07 | fast forward over empty states | reachability; termination characterised exactly |
| C08, C09 | `PfModel`: synchronous circuit of the stages (index, full bits, stalls, triggers), any code in the stages | invariant over all schedules, refinement to sequences of items, liveness by a rank |
| C10 | `OrderModel`: `orderPipelineStages` | soundness and completeness of the greedy order |
| C11 | `PipeModel`: registers of trickling variables, stages of assignments and conditionals | induction over cycles and stages |
| C12 | `UseModel`: uses of D and Q recorded while the code is written, merging of branches, demotion, one and many cycles. `UseFsm`: the chains visited for the states of a compiled program | relational soundness of the analysis (two executions that agree on registers kept), then runs; the code of the chains is the code of C01's machine |
| C13 | `AccModel`: `determineAccess`, `determineUsage` | fixpoint of the traversal, soundness for every path |
| C14 | D/Q selection in `FsmModel`; all kinds of variables and accesses in `KindModel` (`rewrite`, `write`, bits of signals) | simulation with sequential semantics; `KindProofs`: invariant relating signals, dependencies and the list of writes of the cycle, `KindProps` |
| C15 | `DepModel`: `dependencyClosure`, `updateAndCheckDependencies`; `BindModel`: the same with instances | closure reasoning; semantic dependency between values; unique values of wires between clock edges |
| C16 | `SubModel`: subroutines, caller ids, save registers | refinement of a call stack, for every nesting without recursion |
| C17 | `InstModel`: two modules clocked together, call, wait, readback | product invariant; equivalence with a big-step semantics with procedure calls |
| C18 | `LintModel`: inferred widths; IEEE 1364 values of expressions | value-range induction |
| C19 | `RemapModel`: line maps and dichotomy | characterisation of the search |
| C20 | `IncludeModel`: assembly of includes, resolution of names | induction; exact cycle rejection |
| C21 | `CommentModel`: `jumpOverComment` on characters | induction on characters |
| C22 | `WidthModel`: `justHigherPow2`, memories, defines | arithmetic |
| C23, C27 | `BitfieldModel` | list induction, arithmetic |
| C24, C25 | `BindingModel`: bit bindings of outputs and inouts | list induction |
| C26 | `TableModel`: initializers; `FileModel`: texts of the values read from files and strings | list reasoning; `FileProps`: the number of each text (`stored`) against the bytes of the file (`integer_at`) |
| C28 | `CallModel`: matching of parameters | list and string induction |
| C29 | `WidthModel`: address map of RISC-V peripherals | bit reasoning |
| C30 | `PinModel`: `addTopModulePort` | list induction |
| C31 | `ModeModel`: `std::unique` then `std::sort` | permutation reasoning, moved-from strings |
| C32, C33, C38 | `NameModel`: declarations, renaming in blocks, names in the module | string reasoning, injectivity |
| C34 | `TemplateModel`: substitutions by regular expressions | string induction |
| C35, C36 | `RegModel`: register update, delayed assignments | induction over cycles |
| C37 | `LiteralModel`: sized literals | string induction |
| C39 | `ParamModel`: sameas, auto, specializations, contexts, hierarchies | induction on declarations and on the hierarchy |
| C40 | `LuaEnvModel`: save and restore of globals | map lemmas |
| C41 | `FsmModel` | the fuel of each search bounded by well-founded relations read off the layout; monotonicity in the fuel; two witnesses of failure |
| C42 | `CircModel`: instances of circuitries, renaming, temporaries of arguments, declarations | equivalence of programs up to equal stores, commutation of independent assignments, renaming by an injection; composed with C41 |
| C43 | `PortModel`: bindings of the instances from the source to the connections written | case analysis on what the source says of a port; recorded names characterised by induction on the bindings; permutation of the instances |
| C44 | `FormalModel`: assumptions, assertions, covers, stable and past checks over the module of `RegModel` and the machine of `FsmModel`; a check is an assignment to a variable of its own, cleared at each cycle | `FsmStep.follow_step` lifted to executions with failing checks, last start of the machine by induction on the cycles; program without checks by induction on executions |
| C45 | `MemModel`: the templates of memories as reads and writes of two ports at clock edges, widths from the configuration, clocks, an algorithm of `RegModel` next to a memory | bits of the buffer by induction on the history of accesses; `FsmStep.follow_step` lifted to the module with its memory |
| C46 | `ResetModel`: ports for control and pins connected in a hierarchy of units, names used and declared by each module, value of reset in each module | induction on hierarchies and paths; initialization from `RegModel` |
| C47 | `DefineModel`: variables stable in a cycle over the chains of `UseModel` and the dependencies of `DepModel`, macros and their expansion; `DefineText`: text, width and value of a macro (IEEE 1800 size casts) over the expressions of `LintModel`, accesses to parts | simulation between the code with signals and the code with macros: a macro has the value of its variable as long as no dependency is assigned again; order of definitions gives the end of the expansion; arithmetic for widths |
| C48 | `TrackModel`: texts of the wires, settled states of wires and combinational code (over `UseModel.module_use`), the checks on dependencies with trackers (over `DepModel`) | one simulation between the code reading wires and the code with expressions in place, for values of the wires that agree with the end of either execution, gives existence and uniqueness; for acceptance, rows are transitively closed without junk (`TrackDeps`), no tracker is in its own row, induction on the number of trackers in a row |
| C49 | the state machines of C01 (`FsmModel`); `FsmTimeSem`: execution of the text with the ends of the cycles; `FsmTimeCost`: cycles of each instruction | `FsmTimeStatic`: which blocks after conditionals become states, from the marks set by preventIfElseCodeDup, as a condition on the text (`cut`); `FsmTimeSim`: simulation of the machine by the deterministic execution, which is therefore exact; `FsmTimeCost`: induction on the rules |
| C50 | `BindModel`: ports of instances (writeAsModule), values between clock edges, clock edges, dependencies of instances | `BindDeps`: invariant from the dependency sets to chains of wires; `BindProofs`: iteration to the unique values; `BindTime`: traces, induction on cycles and on chains of instances |
| C51 | `SplitModel`: `luaCodeSplit`, `jumpOverString`, `luaProtectString` on characters, and the reading of calls and strings by Lua | `SplitProofs`: induction on pieces and lines of a source given by its grammar; the generated call is read back |
| C52 | `UnitModel`: `decomposeSource`, `jumpOverUnit`, `jumpOverNestedBlocks`, `LuaCodePath`, `nameToLua`, `prepareCode` on characters | `UnitProofs`: sources as trees of conditionals; mutual induction on trees (path and depth are kept by a tree), induction on the source; C51 for the text of the functions |
| C53 | `PopModel`: checks and sets of `gatherPipeline`, order (C10), dependencies kept between stages by `writeStatelessPipeline`, trickling as in C11 | `PopProofs`: meaning of the code of a stage when d side and value read differ, dependencies after any prefix of the order; `PopRun`: stages that stay in order, successive cycles |
| C54, C55 | `ScopeModel`: blocks with their parent, rules of rewriting and declarations; the gather functions for what concerns blocks and names; both `checkPermissions`; `lex`: lexical scope of the source | `ScopeProofs`: invariants of blocks and names; `ScopeRun`: declarations and uses, stability of what is resolved; `ScopeMain`: induction on programs (a run in a block against the blocks it leaves untouched); `ScopeProps`; `ScopeFit`: rules on the source (`fit`) and their equivalence with gathering without error (names of blocks never collide but for labels and subroutines); `ScopeFitProps` |
| C56 | `InitModel`: declarations in blocks (`initialized_vars`, expression catchers), `blockIsEmpty` and `no_skip` as changed by them, `writeVarInits`, the writing of states with them (`compile_init`); the runs of a program | `InitRuns`: each block holds a run; `InitView`: order of the initial values, same numbering; `InitEmit`, `InitProofs`: simulation of the code written, state by state then cycle by cycle, with the machine of C01; `InitProps` |
| C57 | `ExprModel`: the trees of the grammar of expressions (`der`), the text written (`write`), and, as specification, a lexer with the longest match and a parser with the precedences of Verilog (`reads`) | `ExprLex`: the text is that of a list of tokens, split again into them iff no neighbours join; `ExprParse`: the parser finds a tree iff the tree has the precedences, by induction on fuel and trees; `ExprProofs`: both conditions on the source; `ExprValue`: chains of conditional operators, values in the semantics of C18; `ExprProps` |
| C58 | `ImageModel`: the header, the twelve readers of pixels as one function of the format (`load`, `read_px`, `read_rle`), arrays with unset cells and writes out of them, `get_image`, `get_palette`, their texts, `save_with_palette` | `ImageProofs`: what bytes mean (`codes`, packets), induction on pixels and packets, fuel; `ImageTable`: header, sizes, tables, palettes, saving; `ImageProps` |
| C59 | `RvModel`: the parts of the code made for each port (`one_part`, `trigger_of`), ports, addresses of C29, the cycle of the system (`step`, `rdata`) | `RvProofs`: address bits, each variable is assigned by its own part only; `RvProps`: induction on the sequence of accesses |
| C60 | `ModModel`: static blueprints gathered (`gather`), the two passes writing the tree of instances (`write_as_module`), names of modules (`header`, `module_name`, `mem_module`), cells (`ref_of`) | `ModProofs`: names as lists of parts between underscores, a name gives back its position; `ModProps`: induction on the tree of instances |
| C61 | `TopModel`: pins and groups of a framework (`declare`), signature, wires and connections of the top module (`make_top`), bits of a Verilog concatenation (`port_bit`) | `TopProofs`: declarations kept by later ones, bits of a concatenation counted from its end, wires named apart; `TopProps` |
| C62 | `MemberModel`: declarations of ports (`gatherVarNfo`, `plain`), members of groups (`group_vars`, `listed`, `whole`) and interfaces (`iface`), the list of a unit (`gatherIOs`), groups in the body (`declare_group`) | `MemberProofs`: the lists of ports grow by the ports of each item; `MemberProps`: the relation `declares` says what an item declares, induction on the list |
| C63 | `AccessModel`: types of accesses (`type_ident` .. `type_access`), what is written (`write_ident` .. `write_access`), sign and width in Verilog (`verilog`) | `AccessProps`: the relation `designates` says what identifiers are, cases on the access |
| C64 | `DeclModel`: usages (`usage_of`, `refine`), signal used (`var_signal`, `out_signal`), declarations (`decls`), outputs of the module (`out_assign`), value of constants (`constant`) | `DeclProps`: filter of the declarations by name, cases on the flags |

Every property of `properties.jsonl` is expressible in these models; none is "not applicable".

## What is not modelled

* C26 (`FileModel`): the machine running the compiler is assumed to store the lowest byte first and to have signed characters; finding and opening the file is not modelled.
* C64: texts of types are numbers, what the first pass tells (`stable_in_cycle`, `ff_usage`) is any value (C13 and C47 say what it is). Readings in the always_before block are those of its first level.
  Names of variables and outputs are different, as the compiler requires. Inputs, inouts, wires of instances, signals of pipelines and indices of state machines are not included, nor is the legality of macros (C47).
* C63: indices and starts of parts are texts (C57). Which signal of a variable is used (register, next value, wire, macro) is in C14 and C47, a macro being a
  variable here. Clocks and resets other than the default ones are not represented. Trusted: the rules of IEEE 1364-2005 for names of arrays and signs of selections; 1-bit variables are vectors of one bit, as declared.
* C62: sameas is only known to be on a variable or on a group, its resolution is in C33. The iteration order of the map of the members of a group is any permutation. Tables as ports and symbols of the list are not modelled (the first are errors).
  In the body, names taken are given as a list; renaming by blocks is in C54. The pointer stored for inouts (to a local variable of the loop) is not modelled.
* C61: entries of a group are met in the order written (Lua iterates the array part of a table in order, without the nil ones). Strings and tables made by hand in place of pin.p and pin.p[b] are not modelled, nor the option accepting ports without pins.
  Substitution of the signature and of the connections in the template of the board is textual and not modelled.
* C60: units are trees already parsed, the text of a module is a number besides the cells it has. Verilog files are the names of the modules in them. Instances without a name get one ending in _unnamed_ and a count, taken here as any name.
  That static blueprints are known before the units using them are parsed is an assumption (`resolved`).
* C59: the code is modelled as the list of its parts rather than as text; the always block of riscv-soc.si is transcribed by hand, its registers follow C35 and C14.
  The processor, the C compiler, the linker script and crt0 are not modelled. Names of ports are assumed distinct (C38), widths positive.
* C14 (`KindModel`): operators are any functions of numbers, widths of intermediate results are those of C57. Bits outside of a variable read as the
  parameter `unk` and writes there are lost, as in Verilog. Outputs of instances and wires are one settled value per cycle. Switches are the conditionals of C02.
* C58: a file is the list of its bytes. Trusted: little endian machine and packed header; `ForIndex` of LibSL converts its bound to int, `Array2D` is stored row by row;
  Lua tables are sequences of integers, what Lua does with the numbers is not modelled. A short header, an unset field or pixel, a negative `new` and a short
  `fread` are undefined behaviour (`Undef`). `save_table_as_image` (a call to LibSL) and `palette_r/g/b` tables are not modelled.
* C57: identifiers, accesses to groups and instances, widths and offsets are given by the words they are rewritten to; words are made of letters, digits,
  `_`, `$`, quotes and back quotes, and are not split further (a sized number is one word). Trusted: ANTLR groups the conditional operator from the left, as its
  manual says of operators without `assoc=right`; the lexer and parser of Verilog are written from the standard, accept any unary operator
  before a primary and leave out `**`, `/`, `%`, real numbers and strings. Values: accesses mean anything, `===` is `==`, there are no x and z.
* C56: a declaration is the assignment of its initial value, recognised by a function `kind` of instructions, any function whose declarations
  with a value are assignments of constants. Tables, variables with a value between parentheses and `uninitialized` ones (which add nothing to a block) are
  not represented; declarations in pipelines and subroutines are not.
* C54, C55: inputs and outputs of subroutines, instances, memories, circuitries, forward declarations of subroutines, always blocks and initial
  values are not in the programs; an instruction is a list of accesses. The numbers of states are any function of blocks; in the refutations,
  any function that numbers only blocks marked as states (`b_may`, an upper bound of the marks set while gathering).
* C51: of Lua, only quoted strings, parenthesised expressions, concatenation and the call to `output` are read (the value of an
  expression is any function of its text); `assembleSource`, Lua comments in insertions and backslashes outside of strings
  are not in the texts considered. Two behaviours of the LibSL reader (`readString` skipping blanks, or stopping at ends of lines)
  are parameters of the model: theorems hold for both
  (C52: `readString` skips blanks, as otherwise no name of a unit could be read). Units nested in a conditional are found whatever the
  condition; the execution of the generated Lua functions is not modelled.
* Parsing (ANTLR), report printing, file system, Lua itself: the models start from the
  parse tree, or from the text for C19, C20, C21, C34, C37.
* `FsmModel`: variables are registers without declaration scopes; initialised declarations,
  tables, memories, wires, bindings, expression catchers and one-hot `case` are left out;
  pipelines are in `PipeModel` (one cycle per stage) and `PfModel` (any number of states).
* `CircModel`: switches, calls, generic circuitries, groups and partial accesses as arguments are
  left out.
* `FormalModel`: checks in always blocks and pipelines, several algorithms, and the tools themselves
  (depth of the exploration, induction) are not modelled; an execution is considered when the assumptions hold
  in all its cycles. Values of `$past` before the first cycle make the check fail.
* `ResetModel`: names of one unit are scalars, constants and tracked expressions are left out; unique names of instances
  (C38); one clock; stages of pipelines only by their update at the clock edge.
* `MemModel`: unknown values are arbitrary numbers; the inputs of a memory are registers; memories bound to
  instances and contents read from files are left out.
* `PortModel`: the right side of bindings is an identifier; names of variables in blocks, widths,
  split inouts and the emission of inouts are left out.
* `PfModel`: the code of a stage is any behaviour that ends in the last state of the stage;
* `PipeModel` and `PopModel`: nested pipelines and stages with states are left out (states: C08); operators written inside a circuitry called by a stage (the search looks at the text of the stage only), outputs and tables too.
* `PipeModel`: operators `^=`, `v=`, `vv=` and nested pipelines are left out.
* `SubModel`: labels, gotos and waits are left out; blocks with a call are closed as the
  compiler does, other instructions of the block being in the previous one.
* `AccModel`: heads are taken over the visited blocks; readback of a join counts as ordinary
  reads; bindings, memories and wires are a parameter (reads known from outside).
* `RegModel`: delayed assignments with a direct dependency on themselves only.
* `InstModel`: one instance, registered outputs, inputs not bound.
* `ParamModel`: groups and interfaces are left out, names of variables in blocks are those of C38.
* `UseModel`: variable initialisations, pipelines, instances reading the D side, constants
  and tables are left out.
* `DefineModel`: as `UseModel`; rows inserted at the inner ends of a state in the dependencies of always_after are taken at its end;
  macros of wires, instance outputs and tracked expressions are left out. `DefineText`: digits x and z are left out.
* `DepModel`: instances are in `BindModel`, tracked expressions in `TrackModel`.
* `BindModel`: the parent is one combinational block (assignments and conditionals) with registers, units are functions from registers and inputs to the next
  registers (so state machines, memories and nested instances are inside the function); bindings of groups, parts and expressions, inout ports, calls,
  clocks and resets bound by hand are left out; when a variable is bound several times inputs are looked at first.
* `TrackModel`: instances, memories and inputs bound to trackers are left out; trackers that are never read are written too; acceptance
  is proved meaningful for assignments without conditionals, states only share the dependencies of `DepModel`.
* `NameModel`, `CallModel`, `BindingModel`, `PinModel`, `TableModel`, `BitfieldModel`: exactly
  the functions cited beside each definition.

## Trusted base

* Coq's kernel (`coqc` 8.16.1; `vm_compute` is used in proofs of examples and witnesses).
* Axioms: none. Every `Print Assumptions` of the property theorems prints "Closed under the
  global context". No axiom of the standard library is used. (The `ssr` parameters reported by a
  whole-library check come from modules of the standard library which no theorem uses.)
* The reading of the C++ behind each definition, cited by file and lines.
* The meaning of the emitted Verilog: blocking assignments of a combinational `always`
  block executed in order, registers loaded at the clock edge, first matching label of a
  `case`, expression widths and signs as in IEEE 1364 (C18); non blocking assignments of memories, in
  any order between two always blocks, attributes such as `no_rw_check` ignored (C45).
* Libraries used by the compiler and absent from the repository or external: LibSL
  (`BasicParser` primitives for C21, C51 and C52, path functions for C20, `ForRange` with both bounds),
  libstdc++ (`std::unique` by moves, `std::sort`, value of moved-from short strings for C31;
  `std::regex_replace` with `$` formats for C34), luabind (a global that is `false` reads as
  absent for C40).

## Seeded errors

`seeded/LOG.jsonl` lists the edits made to the model definitions in a scratch copy, one at a
time, the statements that no longer compile and, when everything still compiled, the theorem
added or tightened so that the edit is now caught (`tightened`).
`failed` is where the build stops, often a lemma below the claim; `theorems_blocked` are the
theorems that depend on it. A failure shows that the proofs depend on what was edited. It does not
show that the claim became false: a proof script also breaks on an edit that leaves the claim true.
For C57 the records say in `note` on which expression the claim becomes false. Edits that leave the claim true are marked in `note` for C56 and C57, and in the text of the edit for a few others; earlier
records were not all examined for this.
