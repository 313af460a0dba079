# Formal model of monoasm in Rocq (Coq 8.16.1)

`properties.jsonl` lists the properties in words, `MANIFEST.json` the theorems per
property, this file how they are modelled and proved, what is trusted, what is not
modelled, and what the proofs found.

## 1. The model, layer by layer

| layer | file (rocq/theories) | code in /repo |
|---|---|---|
| integers, casts, little endian | `Base` | Rust `as` casts and shifts |
| memory manager: pages, cursors, labels, relocations, constants, data, `finalize`, patching, slices, code pointers | `ModelMem` | `monoasm/src/jit_memory.rs` 15-575 and 889-894, `monoasm/src/lib.rs` 8-42, 254-362 |
| memory protection set by `JitMemory::new` | `ModelProt` | `jit_memory.rs` 241-254 |
| positions and indexing by position | `ModelPos` | `lib.rs` 254-278, `jit_memory.rs` 52-70, 195-227 |
| instruction encoder | `ModelEnc` | `jit_memory.rs` 162-171, 577-886, `lib.rs` 44-252 |
| syntax trees: token trees, operands, instructions | `ModelSyntax` | `monoasm_macro/src/inst.rs`, `parse.rs` (types) |
| parser of `monoasm!` over token trees | `ModelParse` | `monoasm_macro/src/inst.rs`, `parse.rs` |
| the Rust code `monoasm!` expands to, and running it | `ModelMacro` | `monoasm_macro/src/asm.rs`, `lib.rs` |
| the same code with expressions that have effects | `ModelEff` | `asm.rs`, `parse.rs` (`ToTokens`) |
| the same with expressions that may leave the block | `ModelLeave` | `asm.rs`, `parse.rs` (`ToTokens`) |
| the same with expressions that use the assembler | `ModelUse` | `asm.rs`, `parse.rs` (`ToTokens`), macro `lib.rs` |
| the same with expressions that do both | `ModelFlow` | `asm.rs`, `parse.rs` (`ToTokens`), macro `lib.rs` |
| the same with all names and types of the scope, and the base expression | `ModelNames` | macro `lib.rs`, `asm.rs` |
| the tokens of the expansion around an embedded expression | `ModelSplice` | `parse.rs` 444-488, `asm.rs` (immediates, call) |
| operands in messages (`Display`) | `ModelShow` | `parse.rs` 142-149, 229-233, 340-344, 470-478; `inst.rs` 533-540, 594-602, 652-659, 705-711, 770-777, 831-843 |
| making and dropping assemblers in a process | `ModelNew`, `ModelProt` | `jit_memory.rs` 236-263 |
| the code generator of the README | `VmCode`, `Fibo` | `README.md` 209-368 |

State: allocation base address, flat byte memory `Z -> Z`, bookkeeping of the three
pages, selected page, label table.  Every `pub fn` is a function in the state monad
`M A := jit -> res A`, where `res` is `Ok value state` or `Panic reason state`; the
state at the moment of a panic is kept because callers can catch it.
The generated code of the macro is a small language (`gcode`: calls of encoder
functions, `let imm`, `if let Ok(imm) = ..`, `if reg.is_rax()`, panic) run in an
environment of the caller's variables, so name capture is visible in the model.

Specification, written without reference to the model:

| file | content |
|---|---|
| `SpecX86` | a decoder for the used part of x86-64, from the Intel SDM vol. 2 |
| `SpecAsm` | `denote`: which machine instruction a written instruction names, or none |
| `SpecTaken` | which machine instruction is assembled for operands outside the machine's range |
| `SpecState` | what "these bytes were appended and nothing else happened" means, effective addresses, immediates |
| `SpecHist` | API calls as data (`op`), histories (`run`, `reached`, `run_any`), observations |
| `SpecScope` | which variables the expressions of a block see; the block with every expression replaced by its value (`frozen`) |
| `SpecEff` | the values of the expressions of a block with effects, each evaluated once |
| `SpecUse` | blocks whose expressions read or change the assembler, statement by statement |
| `SpecMulti` | histories that assemble several blocks, and the interpreter of their source |
| `SpecAgain` | what references stand for if labels are bound again, and the interpreter of such programs |
| `SpecWhen` | histories with calls of finalize put off, and what is the same afterwards |
| `SpecMoved` | images in two allocations, byte by byte |
| `SpecOrder` | histories that differ in the order of work on different pages |
| `SpecTwo` | a two-pass assembler |
| `SpecShow` | when a text shows an operand |
| `SpecLimit` | the room a statement takes |
| `SpecPlan` | the end of each page, added up call by call |
| `SpecChart` | the place of each label, beside the plan |
| `SpecRename` | histories that differ in the numbers of their labels |
| `SpecPanic` | what a call that panics and is caught may not destroy |
| `SpecProg` | disassembly of a block (`listing`), a fetch-decode-execute machine and a source-level interpreter over an arbitrary instruction semantics |
| `SpecFP` | doubles as 64-bit patterns: arithmetic (rounding as in the standard library's `SpecFloat`), conversions, NaN rules |
| `SpecMachine`, `SpecCpu` | what the decoded instructions do to registers, flags, xmm registers and memory (SDM vol. 2), and a processor that fetches from its own memory |
| `SpecHost` | functions outside the generated code: calling convention, a processor that calls them |
| `SpecShare` | several assemblers and other code in one process, with one memory |
| `SpecFlow` | blocks whose expressions use the assembler and may leave, statement by statement |
| `SpecStory` | a program that runs while other code runs, assembles and patches, with one memory |
| `SpecBudget` | bytes a call may take, which calls make sense, sessions that all return |
| `SpecNames` | which variables of which types the expressions see, for callers with variables of any name and type |
| `SpecGas` | which bytes the GNU assembler writes for a machine instruction |
| `SpecNew` | what allocator, operating system and other code promise, and the memory of an assembler |
| `SpecVm` | programs of the virtual machine of the README, what they compute and the stack they need |
| `SpecRust`, `SpecSplice` | Rust's integer expressions: reading, types, values; what an expression at a place is meant to be |
| `SpecGrammar` | the input language as an inductive grammar, the table of mnemonics, a printer |

Proof files: `Trace Emit EncDec Fidelity FidelityInst StateFid EncFacts TakenFacts EncRefute`
(encoder), `MemInv .. MemMore PosFacts PanicFacts PanicDemo` (histories), `ProgOne .. ProgDemo BlockTaken BlockDemo BlockConst ConstDemo Share* Flow* New* Story* Budget* Limit* Room* Plan* Chart* Names* Gas* Splice* Again* Order* Rename* Moved* When* ScopeFacts ScopeBlock ScopeDemo EffStmt EffFacts EffPure EffDemo UseFacts UseStmt UseBlock UseDemo MultiPlace MultiRun MultiDemo` (blocks),
`ParseOk .. ParseProg MacroRefuse` (macro), `MachRun MachLib MachImage Fibo* Test* Vm*` (processor).
`DemoText` has a lexer and an evaluator of Rust expressions, only to write example programs
as text.  The property theorems are in
`Props_Chart`, `Props_Plan`, `Props_Room`, `Props_Limit`, `Props_Show`, `Props_Two`, `Props_Order`, `Props_Rename`, `Props_Moved`, `Props_When`, `Props_Again`, `Props_Splice`, `Props_Gas`, `Props_Names`, `Props_Enc`, `Props_Mem`, `Props_Prog`, `Props_Macro`, `Props_Mach`, `Props_Test`, `Props_Taken`, `Props_Block`, `Props_Pos`, `Props_Panic`, `Props_Scope`, `Props_Eff`, `Props_Multi`, `Props_Leave`, `Props_Live`, `Props_Use`, `Props_Rebind`, `Props_Vm`, `Props_Share`, `Props_Flow`, `Props_New`, `Props_Story`, `Props_Budget` and nowhere else; each is
closed by `exact lemma`, followed by `Print Assumptions`, and has an `Example`
(`Cnn_case`) meeting its hypotheses.

## 2. Trusted base

* Coq 8.16.1's kernel, including `vm_compute` (used on closed computations: examples,
  witnesses, finite tables such as register numbers, condition codes and mnemonics).
* `Print Assumptions` says "Closed under the global context" for **every** theorem of
  the Props files: no axiom, of the standard library or otherwise, is used.
  (`coqchk` lists seven constants `Coq.ssr.ssrunder.Under_rel.*`; they are the fields of a
  module type in the standard library's ssreflect plugin files, loaded by `lia`'s
  dependencies, and no theorem depends on them.)
* The transcription of the Rust code into the model, and of the SDM into `SpecX86` and
  `SpecMachine`/`SpecFP` (the latter matter only for C44 and later).  `SpecFP` takes the
  rounding of `Coq.Floats.SpecFloat`; MXCSR is at its default, exceptions masked.
  The two transcriptions of the SDM were tested (tests, not proofs; `tools/validate`): the
  extracted decoder against objdump on 236,000 random byte strings it accepts (140 mnemonics),
  and the extracted `cpu_step` against single steps of a Xeon on 154,000 random instructions
  and states (116 mnemonics): no disagreement.  Decoded instructions without semantics in
  `SpecMachine` (single precision, bsf/bsr, 8-bit multiplication and division, syscall) have no
  next state; neither does an address computed for a relative branch wrap at 2^64.
  `SpecGas` was compared with GNU as 2.40 on 1,374,063 lines (all instructions; registers, addressing forms, boundary
  displacements, immediates and shift counts): no difference; the model differs on the exceptions of C67 only.
* Section variables, universally quantified in every theorem:
  `ev` (value of an embedded Rust expression in an environment; expressions are pure, except in C53
  C55 and C57, where they also act on any state of the caller, in C55 may leave the block and in C57
  use the assembler),
  `lenv` (label bound to a label identifier), `r` (caller's variables),
  `h` (the functions outside the generated code, in C60: anything that keeps the calling convention),
  `is_expr` (which token lists `syn` parses as an expression), `checks` (overflow checks in
  the macro crate), `sem` (any instruction semantics, in C34).

### Not modelled

* What `alloc` and `mprotect` do beyond their results (`ModelNew` has failures); the allocation returned by `alloc`
  is anywhere, with any contents.  Where an alignment of the allocation matters the
  statement has the hypothesis `base s mod 4096 = 0` (the layout asks for alignment 2^28).
* `Debug` implementations (but that of `OperandSize`), `Display` of `monoasm::Reg`, the fixed words of messages, `_p` (prints), the bodies of the printing helpers of `monoasm/src/test.rs`,
  the objdump process of `dump_code` (the bytes handed to it are modelled).
* Calling the generated code from Rust (`transmute` to `extern "C" fn`): C45 starts at the
  entry point with the arguments in the registers of the System V convention.
* Direct assignment to the public field `code_block` of a page by the caller.
* Lexing (token trees are the input), spans and error texts, the parsing of the base expression of
  `monoasm!(base, ...)` and of the comma after it, the parsing of embedded expressions.
* rustc's treatment of the generated code: type errors (except those of `dq -1.5`: a negative `Literal` becomes
  the two tokens `-` and `1.5f64`), lints on literals out of range,
  expressions whose type does not fit a variable of the expansion (`ModelNames` has labels of such names).  `SpecRust` has the
  types and values of integer expressions for C68; there references, method calls and the like stand for variables.
* Arithmetic overflow of `usize`: positions are at most 2^28 and addresses below 2^64, and the
  theorems bound them.
* That rustc lets an expression
  change the assembler only in an immediate or a condition (C57 holds without).
* Concurrency: `JitMemory` is used through `&mut` (several objects, one after the other: C61).

Simplifications are stated in the comment of the definition concerned.

## 3. Properties: how they are stated and proved

Encoder (Props_Enc).  Each encoder function emits a list of *items* (bytes, words, label
fields); lists are flattened under an arbitrary filling of the label fields and the
decoder of `SpecX86` returns the intended instruction and the rest of the stream.
`ordinary` means: registers are 0..15 (a base may be rip), the memory operand has an
x86 encoding, no address expression uses a variable named `imm`, roundpd's mode is a u8.

* C01, C02, C03, C05, C06: `grows s s' bs` and `bs` decodes to `denote` of the statement;
  operand by operand for C03/C05/C06.  Partial: see section 4.
* C04, C35, C37: immediates in range are accepted and exact, out of range panic; C37 is the
  equivalence "denotes an instruction iff accepted, and then encoded as it".
* C07: the relocation recorded for a label points at a 4-byte zero field and counts from the
  end of the instruction.
* C09: register numbers out of range; C26: a panic leaves no bytes; C33: xchg.

Histories (Props_Mem).  `reached` is closed under all API calls including caught panics
(except of `finalize` and page overflow), and under writes to memory by any other code of the process (the generated
code, Rust code) that leave the fields of unresolved references alone; an invariant (cursor bounds, pending references
lie in emitted code and are pairwise disjoint, queued constants have labels) is
preserved by every call.

* C10, C11, C12, C18, C20: fate of references through any number of finalizes.
* C13, C14, C15, C23: which bytes a call may change.
* C16, C17, C19, C21, C22: constants, data, labels, code blocks, slices.
* C24, C32, C36, C40, C41: include, raw emission, code pointers, alignment, protection.

Blocks (Props_Prog).

* C08: after the labels are linked, by whatever later calls, the memory disassembles to the
  block statement by statement with every branch at its label.
* C25: expressions are evaluated in the caller's scope; C31: splitting and position independence.
* C34: the machine running the bytes and the interpreter of the source take the same steps, for
  any instruction semantics.

Macro (Props_Macro).

* C38: parser = grammar, both directions; C29: the documented grammar and the printer round-trip;
  C27, C28: condition codes and mnemonics mean what the manual says; C30: minus signs;
  C39: source text to disassembly; C42, C43: README mnemonics, statements that do not expand.

Processor (Props_Mach).

* C44: C34 for a definite instruction semantics and with instructions fetched from the memory the
  program writes to; the program must leave its own code alone (`keeps_code`).  Flags the manual
  leaves undefined are `None` and a conditional instruction on one has no next state; neither
  have syscall and int3.
* C45: the README program, from the text of its macro calls through parser, expansion, encoder
  and finalize (by computation, once, then moved to any address by C31) to the value it returns
  (by induction on n).
* C47: `SpecTaken.assembled` says how operands outside the machine's range are taken; the
  encoder lemmas (`Fidelity`, `FidelityInst`) are proved for operands as taken, and those for
  ordinary operands (C01, C37) are the special case where `taken` is the identity.
* C48: C08, C34 and C44 for any operands, with `as_linked` in place of `denote`; those three are
  its special case (`plain_as_linked`).  C48_accepted says which blocks are assembled at all.
* C49 joins C16-C21 (where constants are placed) with C48: `made d l s` is the call that created the
  constant, anywhere in the history, and the clauses say what one step of the processor does at a
  statement that uses its label, whatever calls come before, between and after.
* C50: positions (Props_Pos); C51: states behind caught panics, over `run_any` (Props_Panic).
* C52 says what blocks mean whose expressions mention a variable `imm`, the case C25, C31 and
  C48 exclude: any block is, in every state, its frozen block (Props_Scope).  C66 is the exact version, in a model where
  variables have types and every name may be the caller's; `C66_asm` and `C66_flow` say for which expressions the models with
  integer variables are right (those that do not mention `op1`, `op2`, `rm_op` and of `imm` use the number only).
* C53: blocks whose expressions have effects (`ModelEff`): evaluated once they give a block of literals
  (C53_partial), without effects they are the blocks of the other properties (C53_pure, C53_frozen).
* C54 composes C48 and C52 over all blocks of a history: one interpreter for all of them, with labels
  shared between the blocks.  `bound_once` and `complete` are what the caller has to see to.
* C55: blocks left by one of their expressions (`ModelLeave`).  What C26 says of panics of the expansion
  C55 says of expressions that do not return: `?`, `return`, `break`, a panic of their own.
* C56: programs that grow and are patched while they live (`SpecLive`).  C23 says what one patch does to five
  bytes; C56 puts C23 and C54 together over histories of both: the source of a program is a value that
  `apply_jmp_patch` rewrites, and the code in memory is that source at every point.  It is about direct jumps
  and calls; a label in front of a conditional jump can be patched too, without a panic, and that
  overwrites the second opcode byte (`C56_jcc_refuted`).
* C57: expressions that use the assembler they assemble with (`ModelUse`).
* C58: labels bound more than once (C54 and C56 ask for labels bound once), which `bind_label` accepts.
* C59: the code generator of the README as a compiler: C45 is about the one function the README makes with
  it, C59 about every program that can be made with it.  Each method is a call of `monoasm!` with the text
  written there, lexed, parsed and expanded by the model; jumps, labels and `movq rax` are written by the
  README between the calls and are taken as instructions of the virtual machine here.  Stack is part of the meaning: a program that needs more than there
  is has no value.
* C60: C59 with `puts`.  The processor of `SpecHost` lets a function outside act in one step when the program counter
  is at its address; it is any function on states that keeps the calling convention (`abi`), which promises
  something only for calls with an aligned stack.  C59 is the case without such functions.
* C61: several assemblers.  Every method is shown not to read memory (`obl`: run on two states that differ in memory only,
  it answers the same and writes the same bytes to the same places), and C14 says where it writes; the rest follows for any
  interleaving.  The memory is a field of the assembler in the model of one assembler and shared in `SpecShare`.
* C62: C55 and C57 together.  When the check of an immediate fails, the text of the panic evaluates an operand (asm.rs 293, 443,
  486, 533, 795; `message` in ModelEff), which may leave before the panic is raised (C62_case_shown).  The expressions run in a world that stops when one leaves (`until_left`), so that C53's
  order (`v_inst`) serves for the statement.  The check of an immediate or of a shift count register comes before the other operands:
  `movl [rdx + (f()?)], (1 << 32)` panics and `f` is not called.
* C63: the process.  `new` is run step by step with any results of `alloc` and `protect`; the events of a process are constrained
  by what allocator, operating system and other code promise (`fair`).  Nothing frees the pages of an assembler: the crate
  has no `Drop`, so code stays callable after the assembler is gone, and memory is never given back, also when `new` panics
  (C63_leak_refuted).  It gives the condition of C61 that allocations are apart.
* C64: C54, C56 and C61 together on the processor.  A list of happenings (steps of the program, other code acting and choosing where
  to go on, assembling, patching) is followed on both sides: the processor fetches from the memory that the assembler writes,
  the source is interpreted and is rewritten by growths and patches.  x86 needs no flush of the instruction cache for code changed by the same
  thread between jumps; the model has none (concurrency is not modelled).
* C67: `gas` starts from the machine instruction, not from the text; `count_written` undoes that `denote` reduces shift
  counts modulo 32 or 64 (gas does not, nor does monoasm).  `as_gas` allows the two longer forms, `C67_length` says exactly when
  they are taken.  Labels with a base other than rip (not refused by the macro) are outside: gas has nothing to compare with.
* C68: the only property about the tokens of the expansion inside expressions.  `ModelMacro` takes `i32 (eval e)` for the displacement
  `#e as i32` and `i64 (eval e)` for the distance of a call; that is right for the expressions that C68 calls harmless, and the other
  properties are about programs whose displacement and call expressions are such, or are written with parentheses of their own,
  `[rax + ((a / b))]`.  `SpecRust` is Rust's expression grammar (precedence climbing over token trees) with rustc's typing of
  integer literals; it was written from the Rust Reference and not compared with rustc, which is not at hand.
* C65: sufficient condition told from the calls alone.  Constants are charged `align - 1 + length` because the layout at finalize is
  not additive (what the alignment costs depends on the cursor).  `C65_on` gives it back in the same form, so sessions compose;
  `C65_tight`: PAGE_SIZE single bytes fit, the next panics with PageOverflow.
* C46: the functions of `monoasm/tests`, likewise, by symbolic execution of their images.
* C69: C54 without the condition that labels are bound once, and without a finalize at the end (every api history).  `rebound` follows, call by call, where
  a label was bound last; a call of bind_label, a caught panic of a block that defines the label and whatever happened before the history
  count as "otherwise", and a jump to such a label is by its address.  A block may define the
  label of a constant that is still to be placed: finalize binds the label again, to the constant (`waits`, `C69_constant`).
* C70: about pairs of histories.  `WhenFacts` proves, function by function, that a call does not see which references have been filled; `api` calls only, since
  a patch of a field not yet filled is overwritten by the finalize that comes later.  `same_code` is everything in the state except `code_block`, `code_block_top`
  and `code_len`, which record where finalize was called.
* C71: about the same history from two `jit_new`.  `MovedFacts` proves, function by function, that a call sees neither the base nor the memory; `api` calls only:
  the results of get_current_address and get_label_address are addresses, and patching takes one.  A block's expressions could use such addresses; they are inputs of the
  history here (the same values in both), so a block that is given an address, as `call` of a Rust function is, is the same text in both.
* C72: `alike` asks that a label has been created in both histories before a call is given it (a label that does not exist yet can be had in
  Rust only from `DestLabel::default()` or another assembler), and that constants and data, whose creation both returns a label and queues an entry, come in the same order in both.  `api` calls only, as in C71.
* C73: `local` (OrderFacts) says that a call sees, of the state, its page, the base and the number of labels, and that what it does to memory and labels is the same in any two
  states that agree on those.  Calls that bind a common label are not exchanged: the later binding counts (C58).  Creating labels and constants is not moved (C72 is about that).
* C74: `two_pass` shares with C67 the encodings of `SpecGas`, and takes the sizes from them, not from the model; only the values of expressions come from the model's environment.
  The lemmas of `GasEnc` and `GasInst` are stated for any distances in place of label references (zeros give C67, the linked distances give C74).
* C75: a text is its tokens (`ModelShow`), reading is `ModelParse`, meaning `SpecAsm`.  `rust` (SpecShow) lists what is asked of Rust's expressions: literals, `-n`, `n as u64`,
  `-(e as i32)`.  Displacement expressions are `tight` (`e as i32` is the cast of `e`; the others are C68).
* C76: no condition on operands or states; `exec` is the expansion of one statement.  `PageOverflow` is the panic of a write past the page.
* C77: `grows` compares bytes before finalize(); the labels of the second state are at least those of the first (for a rejection, as many).
  `C77_accepted` replaces the 15 bytes for each statement of C52 and C58 by those of C76; C65 counts these, too.
* C78: blocks are those of C74, constants and data any; encoding functions and `save_reloc` called directly, jump patches and writes into finished code are
  not among the calls that make sense (`sound`, as in C65). Where C65 gives a sufficient number of bytes, C78 gives the exact one.
* C79: the same calls as C78. `C79_code` asks that every label the block mentions is bound at some later finalize (`settles`); the bytes of
  references that are never linked are those of C77. `C79_data` likewise for a constant of an address.

## 4. Where the code disagrees with the property

Each has a theorem `.._refuted` with a concrete witness in the model.

| property | disagreement |
|---|---|
| C01, C03 | an index register rsp is dropped: `[rax + rsp*2]` assembles as `[rax]` |
| C02, C08, C34 | `cvttsd2siq` has no REX.W: it converts to 32 bits |
| C05 | displacement expressions are truncated by `as i32` |
| C07, C08 | `roundpd xmm, [rip + label], imm` addresses the byte after the label (so it faults for every 16-byte aligned datum) |
| C09 | register numbers other than those congruent to 16 mod 256 alias (17 is rcx) |
| C17 | `Page(2)` can be made by the caller; `jit[Page(2)].emitb(..)` emits to the data page |
| C24 | with page 1 selected `include` tests page 1 and the data page, not the code pages |
| C25, C31 | `let imm` of the expansion captures a caller's variable named `imm`, in the same and in later statements |
| C52 | the tokens of the expansion have the span of the call, so it takes the names `jit`, `op1`, `op2`, `rm_op` from the caller as well, and beside an immediate `imm` has a narrower type: `shlq [rax + (imm * 100)], (n)` with n = 3 has displacement 44 |
| C26 | `addw` and the other word operations emit 0x66 before the immediate check; index register number 16 panics after the opcode was emitted |
| C30 | `[rip - label]` is `[rip + label]`; `[rax - rcx]` takes rcx as a label; `[rax - -2147483648]` wraps without overflow checks |
| C32 | `dq -1.5` does not compile: the expansion is `-1.5f64.to_ne_bytes()`, which negates an array; a float too large for a double makes the macro panic |
| C46 | the function of cvttsd2si.rs (f64 to i64) is right only for 0 to 2^31; that of divl.rs faults from 2^31 on (the test program's fault: cdq before div) |
| C42 | xchgl, xchgw, xchgb are documented but never expand |
| C51 | a finalize that panics because a constant does not fit has already taken the waiting constants: the next finalize returns without them, their labels unbound or bound behind the page; a finalize that panics on a field past the end of the page (left by a caught overflow of a jump) loses the whole label table, so label() hands out the same labels again |
| C53 | `movq R(e), imm` evaluates `e` twice (an unused `let rm_op = Rm::reg(e)`, asm.rs 375, 383) and assembles the second value; `testq`/`testb R(e), imm` evaluate it twice unless the first value is rax; `xchg R(a), R(b)` evaluates three or four times. With `R(next())` the code is for another register than the first value. The text of a panic evaluates an operand again: the immediate of byte operations and the distance of call (asm.rs 293, 795), the register of movl, movw, movb (443, 486, 533) |
| C55 | instructions with a prefix emit it before their operands are evaluated: `addsd xmm(f()?), xmm1` leaves the byte f2 behind when `f` fails, and after `movw R(f()?), rcx` a `movl rax, rbx` assembles as `movw ax, bx`; the mode expression of `roundpd` is evaluated last, when all other bytes are out |
| C57 | operands after a prefix see the assembler with the prefix emitted: `addw [rax + (pos())], rcx` at position 0 of the page adds to `[rax + 1]` |
| C68 | `[rax + (100 / n)]` with `n: i64` = 2^32 + 5 has displacement 20 (the expansion is `100 / n as i32`); `[rax + (i + i)]` with `i: usize` does not compile; `call (100 / u)` likewise |
| C75 | `testq [rax + rbx*8], (imm)` with a 64-bit value panics with `'TEST [R(0) + (0)], imm64' does not exists.`: `Display for IndAddr` prints no index (`C75_index_refuted`); `[rip + l]` is printed as `[R(16) + (l)]`, the immediate `(rax)` as `rax`, `qword 5` as `5:QWORD` |
| C67 | `movq r9, 1` takes 10 bytes where gas takes 7; `subw rax, 1000` 5 where gas takes 4 (longer, not wrong) |
| C63 | a `new` that panics because `mprotect` fails keeps what it has allocated, possibly executable (a stronger claim than C63 makes) |

Further observations, not properties of their own: jumps do not accept the suffixes l and g, and
no family accepts nb; `shll` parses to the same instruction as `sall`; `imul reg, imm` and
`jmp (disp)` parse but panic in the expansion; registers shadow labels of the same name in
jmp/call; a register name after base + index is taken for a label; `emitl`/`emitw`/`emitq` write the
bytes that still fit before panicking on a page overflow; a patch applied before the jump's own
reference is resolved is lost (C23_pending_lost); `code_len` after a second finalize counts the
constants of the first; the error for a relocation out of range cannot occur (C12); a label bound twice is accepted, and
a jump that stands behind the first binding goes to the second (C58).

## 5. Mutation testing

`tools/mutate.py` applies one edit to a copy of the built tree, rebuilds, and records which
lemmas, examples and (through the dependency graph) property theorems fail.
`seeded/LOG.jsonl` has one line per edit.  Edits that no theorem notices were inspected one by one; so far
all are equivalent programs or were fixed: the first of two `mprotect` calls whose range the second covers
(`new_protects`), bits of a register number the encoder masks (`rex_none_byte`, `enc_oi`), and three definitions
that no theorem mentioned at first (`get_current_address`, `get_page`, `peek`; caught since C36_current, C15_get_page and C50 were added).
