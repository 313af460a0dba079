{"id": "C01", "title": "General-purpose instructions encode to the instruction that was written", "statement": "For every general-register instruction the monoasm! macro supports (mov*, add/or/adc/sbb/and/sub/xor/cmp in all four sizes, xchg, test, shifts and rotates, setcc, cmovcc, neg, imul, idiv/div, lea, push/pop, cqo/cdq, call/jmp/jcc/ret, popcnt/lzcnt/tzcnt, ...), whenever the generated code runs to completion the bytes appended to the current page, read by an x86-64 decoder written from the Intel manual, are exactly one instruction, and it is the written mnemonic with the written operand size and operands (registers, memory operand, immediate).", "quantifier": "every instruction constructor, every operand shape the parser can produce, every run-time value of every embedded Rust expression, every assembler state", "why_tests_cant": "the operand space is 16 registers x (16+rip) bases x 16 indexes x 4 scales x 2^32 displacements x 2^64 immediates per mnemonic; gen.rb compares only a handful of displacements and immediates with GNU as", "anchors": ["monoasm_macro/src/asm.rs: compile, movq, movl, movw, movb, binary_op*, divide_op, shift_op, push_pop, count_op", "monoasm/src/jit_memory.rs: encode, modrm, sib, rexw, rex_none, rex_none_byte, emit_disp_imm, enc_*"]}
{"id": "C02", "title": "SSE instructions encode to the instruction that was written", "statement": "For every floating point instruction (movsd, movq with xmm, addsd..maxsd, xorps, ucomisd, andpd, xorpd, roundpd, cvtsi2sdq, cvttsd2siq, sqrtpd, sqrtsd) the emitted bytes decode to that instruction with the written operands and the operand width the mnemonic names.", "quantifier": "every SSE instruction constructor, every xmm number, every memory operand, every assembler state", "why_tests_cant": "mandatory prefixes, REX placement and REX.W interact for each register/addressing combination; the tests execute one literal register choice each", "anchors": ["monoasm_macro/src/asm.rs: compile (Movsd..Sqrtsd, UComIsd), binary_sd_op, movq", "monoasm/src/jit_memory.rs: encode"]}
{"id": "C03", "title": "Memory operands denote base + index*scale + displacement", "statement": "Every memory operand the assembler accepts is encoded so that the decoded effective address is exactly base + index*scale + displacement (or next-instruction address + displacement for rip), for all registers including the irregular rsp/r12/rbp/r13 cases; operands that cannot be encoded are rejected with a panic rather than assembled as a different address.", "quantifier": "all bases 0..16, all indexes 0..15, all scales, all 32-bit displacements, every instruction", "why_tests_cant": "ModRM/SIB escape cases interact; sampling a few displacements does not show that no combination falls into the wrong escape", "anchors": ["monoasm/src/jit_memory.rs: encode, modrm, sib", "monoasm/src/lib.rs: Disp::from_disp, Mode::encode, Rm::ind, Rm::rip_ind_from"]}
{"id": "C04", "title": "Immediates are exact or rejected", "statement": "If an instruction with an immediate operand is assembled, the immediate in the decoded instruction (sign-extended to the operand size as the CPU does) equals the value of the written expression converted to i64; a value that does not fit the encodable range causes a panic and never a truncated immediate, and every value that fits is accepted.", "quantifier": "every instruction with an immediate, every i64 value", "why_tests_cant": "2^64 values per instruction, with boundaries at 8, 16, 32 bits that differ per operand size", "anchors": ["monoasm_macro/src/asm.rs: binary_opq/l/w/b, movq, movl, movw, movb, shift_op, Testq, Testb, Call(Disp)", "monoasm/src/lib.rs: Imm"]}
{"id": "C05", "title": "Displacements are exact", "statement": "A displacement written as an i32 value is encoded in 0, 1 or 4 bytes such that the decoded displacement equals the written value (sign included), and a displacement expression whose value does not fit in 32 bits is rejected.", "quantifier": "every displacement value and every base register", "why_tests_cant": "the shortest-form choice changes at 0, -128, 127 and depends on the base register; expressions are evaluated at run time", "anchors": ["monoasm/src/lib.rs: Disp::from_disp", "monoasm_macro/src/parse.rs: Disp (Parse, neg, ToTokens)", "monoasm/src/jit_memory.rs: emit_disp_imm, encode"]}
{"id": "C06", "title": "Byte-sized register operands name the low byte of the written register", "statement": "In every byte-sized instruction (movb, addb.., cmpb, testb, setcc) a register operand with number n decodes to the low 8 bits of register n, never to ah/ch/dh/bh, and without a spurious extension of the other operand.", "quantifier": "all 16x16 register pairs and all memory operands for every byte instruction", "why_tests_cant": "REX presence depends jointly on both operands and on the addressing mode", "anchors": ["monoasm/src/jit_memory.rs: rex_none_byte, enc_mr_byte, enc_mi_byte, enc_m_byte, enc_oi_byte, enc_digit_imm_byte", "monoasm_macro/src/asm.rs: movb, binary_opb"]}
{"id": "C07", "title": "Label references inside an instruction are relative to the end of that instruction", "statement": "Whenever an instruction references a label (branch, call, or [rip + label] operand), the relocation it registers is resolved against the address of the next instruction, even when immediate bytes follow the 32-bit field.", "quantifier": "every instruction with a label operand, every immediate size, every state", "why_tests_cant": "the distance from the field to the end of the instruction varies with the trailing immediate; only executing each combination would show it", "anchors": ["monoasm/src/jit_memory.rs: emit_disp_imm, save_reloc, enc_d", "monoasm/src/lib.rs: Imm::offset", "monoasm_macro/src/asm.rs: Roundpd, Call, Jmp, Jcc"]}
{"id": "C08", "title": "Assembled code disassembles to the source program", "statement": "After finalize, decoding the memory of a page from the start of a block of code instruction by instruction yields exactly the written instruction sequence, each branch/call/[rip+label] operand pointing at the address bound to its label.", "quantifier": "every instruction sequence, every interleaving with label definitions, page switches, constants and finalizes", "why_tests_cant": "needs every instruction to be self-delimiting and every relocation to be disjoint from every other byte; test programs are single examples", "anchors": ["monoasm/src/jit_memory.rs: emitb.., finalize, fill_relocs", "monoasm_macro/src/asm.rs: compile", "monoasm_macro/src/lib.rs: monoasm"]}
{"id": "C09", "title": "Register numbers outside 0..15 are rejected", "statement": "An instruction whose register operand R(expr) or xmm(expr) evaluates to a number that is not a register is rejected with a panic; it never assembles as an instruction on a different register.", "quantifier": "every u64 register expression value, every instruction", "why_tests_cant": "the value is a run-time expression", "anchors": ["monoasm/src/lib.rs: Reg::from, Reg::is_rip", "monoasm/src/jit_memory.rs: encode, enc_o, rex, modrm, op_with_rd"]}
{"id": "C10", "title": "finalize makes every bound label reference reach its label", "statement": "For every label reference emitted (jmp/jcc/call/[rip+label]) in any history of API calls, at the first finalize at which the label is bound the 32-bit field is set so that the referenced address is the address get_label_address returns for the label at that finalize, whether the label was bound before or after the reference, on the same page or on another page.", "quantifier": "all histories of API calls (labels, binds, emits, page switches, constants, earlier finalizes)", "why_tests_cant": "unbounded histories; forward, backward and cross-page references interact with incremental finalizes", "anchors": ["monoasm/src/jit_memory.rs: save_reloc, bind_label, fill_relocs, finalize, write32", "monoasm/src/lib.rs: LabelInfo, TargetType"]}
{"id": "C11", "title": "References to labels not yet bound survive finalize and are resolved later", "statement": "finalize does not fail because some referenced label is still unbound; such references stay pending, their fields keep the zero placeholder, and the first later finalize after the label is bound resolves them; a reference already resolved is never rewritten by later finalizes.", "quantifier": "all histories with any number of finalizes", "why_tests_cant": "requires reasoning over all finalize/bind/reference orderings", "anchors": ["monoasm/src/jit_memory.rs: fill_relocs (mem::take of targets), finalize"]}
{"id": "C12", "title": "finalize never fails with a relocation overflow", "statement": "For every history of API calls in which no page overflows, the relocation overflow panic in finalize is unreachable: all pages lie within the range of a signed 32-bit displacement of one another.", "quantifier": "all histories, all positions in all three pages", "why_tests_cant": "would require filling hundreds of megabytes in every layout", "anchors": ["monoasm/src/jit_memory.rs: fill_relocs, new", "monoasm/src/lib.rs: PAGE_SIZE"]}
{"id": "C13", "title": "Emitted bytes are never changed afterwards except by resolving their own relocations", "statement": "Once bytes have been emitted, no later call of the emitting, label, constant, page or finalize API changes them, except that finalize fills the 4-byte (8-byte) fields of pending label references.", "quantifier": "all histories, all addresses", "why_tests_cant": "a frame condition over unbounded histories", "anchors": ["monoasm/src/jit_memory.rs: emitb, emitw, emitl, emitq, write32, write64, resolve_constants, resolve_data, fill_relocs"]}
{"id": "C14", "title": "Writes never leave the page", "statement": "No emitting call or finalize ever writes a byte outside the page it targets: the cursor never exceeds the page size, and a call that would pass the end of the page panics.", "quantifier": "all histories, all cursor positions", "why_tests_cant": "page is 256MB; off-by-one at the end for each emit width cannot be sampled meaningfully", "anchors": ["monoasm/src/jit_memory.rs: Index/IndexMut<Pos> for MemPage, emitb, emitw, emitl, emitq, write32, write64, align*"]}
{"id": "C15", "title": "Pages are isolated", "statement": "Emitting, aligning and creating constants while page p is selected changes neither the bytes nor the cursor of any other page; select_page accepts exactly 0 and 1.", "quantifier": "all histories, all pages", "why_tests_cant": "quantifies over every call and every address", "anchors": ["monoasm/src/jit_memory.rs: select_page, get_page, Deref/DerefMut for JitMemory"]}
{"id": "C16", "title": "Constants are placed once, aligned, and hold their value", "statement": "Each constant created by const_f64/const_i64/const_i32/constant/const_align8 is placed by the next finalize on the page that was selected when it was created, at an address with the documented alignment (16/16/4/16/8), its bytes are the little-endian value (zeros for constant(n)), get_label_address of the returned label is that address, and constants do not overlap one another or the code; later finalizes do not emit it again.", "quantifier": "all sequences of constants of any sizes, all values, all histories before and after", "why_tests_cant": "alignment padding and ordering depend on the whole history", "anchors": ["monoasm/src/jit_memory.rs: const_f64, const_i64, const_i32, constant, const_align8, resolve_constants, align16, align8, align4"]}
{"id": "C17", "title": "Data is placed on the data page and nowhere else", "statement": "Each datum created by data_i64/data_i32/data is placed by the next finalize on the non-executable data page with the right alignment and value, and code pages contain no datum; emitting API calls never write to the data page.", "quantifier": "all histories", "why_tests_cant": "history-dependent layout; separation is a universally quantified frame property", "anchors": ["monoasm/src/jit_memory.rs: data_i64, data_i32, data, resolve_data, DATA_PAGE"]}
{"id": "C18", "title": "abs_address holds the absolute 64-bit address of its target", "statement": "After the first finalize at which the target label is bound, the 8 bytes at the label returned by abs_address are the little-endian absolute address get_label_address returns for the target, 8-byte aligned; until then they are zero.", "quantifier": "all histories, all targets (before/after, other pages, data labels)", "why_tests_cant": "history-dependent", "anchors": ["monoasm/src/jit_memory.rs: abs_address, save_absolute_reloc, fill_relocs, write64"]}
{"id": "C19", "title": "Labels are fresh and label addresses are stable", "statement": "label() (and every constant/data creation) returns a label different from all labels returned before; the address reported for a label is the position at which it was last bound and does not change through any later calls other than binding that same label; all address getters agree and panic exactly when the label is unbound.", "quantifier": "all histories", "why_tests_cant": "history-dependent, unbounded", "anchors": ["monoasm/src/jit_memory.rs: label, bind_label, bind_label_with_page, get_label_address, get_label_addr, get_label_addr2, get_label_u64", "monoasm/src/lib.rs: Labels::new_label"]}
{"id": "C20", "title": "finalize is incremental and repeatable", "statement": "Calling finalize again with nothing emitted in between changes no byte of memory, no cursor and no label address; finalize never moves code emitted before it.", "quantifier": "all histories", "why_tests_cant": "history-dependent", "anchors": ["monoasm/src/jit_memory.rs: finalize"]}
{"id": "C21", "title": "Code blocks partition each page", "statement": "After any history the recorded code_block list of each page consists of intervals start <= code_end <= end where each start equals the previous end, the first start is 0 and the last end is the cursor at the last finalize.", "quantifier": "all histories", "why_tests_cant": "invariant over unbounded histories", "anchors": ["monoasm/src/jit_memory.rs: finalize, code_block, code_block_top"]}
{"id": "C22", "title": "as_slice and dump_code stay within emitted code", "statement": "as_slice returns exactly the first code_len bytes of the current page, which were all below the cursor at the last finalize, and the slice taken by dump_code is always in bounds after a finalize and is exactly the code emitted since the previous finalize.", "quantifier": "all histories", "why_tests_cant": "slice bounds depend on the history of page switches and finalizes", "anchors": ["monoasm/src/jit_memory.rs: as_slice, dump_code, code_len"]}
{"id": "C23", "title": "apply_jmp_patch retargets exactly one jump", "statement": "After apply_jmp_patch(p, d), where p is bound to a jmp rel32 or call rel32 instruction inside a page, that instruction decodes as the same branch to the address of d; no other byte changes; the patch survives all later emits and finalizes when the reference of the patched instruction has already been resolved.", "quantifier": "all positions and destinations on any pages, all later histories", "why_tests_cant": "address arithmetic over all positions and persistence over all later histories", "anchors": ["monoasm/src/jit_memory.rs: apply_jmp_patch, apply_jmp_patch_address", "monoasm/src/lib.rs: CodePtr Sub"]}
{"id": "C24", "title": "include tells whether an address belongs to the code pages", "statement": "include(ptr) is true exactly for the addresses of the two code pages of this JitMemory, whichever page is currently selected.", "quantifier": "all pointers, all states", "why_tests_cant": "depends on page selection history", "anchors": ["monoasm/src/jit_memory.rs: include"]}
{"id": "C25", "title": "Immediate and displacement expressions are evaluated in the caller's scope", "statement": "A Rust expression embedded in monoasm! has the value it would have at the call site, whatever instructions precede it in the block and whatever else the instruction contains.", "quantifier": "all blocks, all expressions, all caller variable environments", "why_tests_cant": "depends on which names the caller uses", "anchors": ["monoasm_macro/src/asm.rs: quote! bodies with let imm", "monoasm_macro/src/lib.rs: monoasm"]}
{"id": "C26", "title": "A rejected instruction leaves no bytes behind", "statement": "If assembling an instruction panics because an operand is not encodable, no byte of it has been appended: the cursor is where it was before the instruction.", "quantifier": "all instructions, all operand values", "why_tests_cant": "depends on the order of checks and emits for each instruction form", "anchors": ["monoasm_macro/src/asm.rs: binary_opw, movw, shift_op", "monoasm/src/jit_memory.rs: encode, sib"]}
{"id": "C27", "title": "Condition codes mean the same in jcc, setcc and cmovcc and match the architecture", "statement": "For every condition suffix accepted by the macro, jcc, setcc and cmovcc use the same 4-bit condition code and it is the one the Intel manual assigns to that suffix.", "quantifier": "all condition spellings in all three families", "why_tests_cant": "finite but combinatorial; the tables are separate copies", "anchors": ["monoasm_macro/src/inst.rs: Cond, Cond::from, parse_jcc, parse_set, parse_cmov", "monoasm_macro/src/asm.rs: Setcc, Cmovcc, Jcc"]}
{"id": "C28", "title": "Mnemonics select the instruction and operand size they name", "statement": "Every mnemonic accepted by monoasm! is parsed as the instruction it names, with the operand size of its suffix, and the number of operands the instruction takes; unknown mnemonics are rejected.", "quantifier": "all identifier strings", "why_tests_cant": "unbounded set of strings", "anchors": ["monoasm_macro/src/inst.rs: Parse for Inst"]}
{"id": "C29", "title": "Operand syntax round-trips", "statement": "Every operand value (register, R(expr), xmm, xmm(expr), immediates, [base], [base +/- disp], [base + index*scale +/- disp], [base + label]) written in the documented syntax is parsed back to that operand, in every operand position, consuming exactly its tokens.", "quantifier": "all operand values", "why_tests_cant": "unbounded operand space; lookahead (peek, is_single) interacts with what follows", "anchors": ["monoasm_macro/src/parse.rs: Register, IndAddr, Disp, Dest, Immediate, is_single, Xmm", "monoasm_macro/src/inst.rs: RmOperand, RmiOperand, RiOperand, XmOperand, MovOperand, ImmOperand"]}
{"id": "C30", "title": "A minus sign in a memory operand negates what follows or is rejected", "statement": "[base - disp] and [base + index*scale - disp] denote the address with the negated displacement for every displacement form the parser accepts after the minus sign.", "quantifier": "all displacement forms", "why_tests_cant": "all syntactic forms", "anchors": ["monoasm_macro/src/parse.rs: IndAddr, Disp::neg"]}
{"id": "C31", "title": "Emission is compositional and position independent", "statement": "Emitting a sequence of instructions in one monoasm! block or in several consecutive blocks gives the same bytes, and code without absolute addresses is byte-for-byte the same wherever the JIT memory is allocated.", "quantifier": "all splits of all instruction sequences, all allocation addresses", "why_tests_cant": "allocation address varies from run to run; all splits", "anchors": ["monoasm_macro/src/lib.rs: monoasm", "monoasm/src/jit_memory.rs: fill_relocs"]}
{"id": "C32", "title": "dq and the raw emit calls append little-endian data", "statement": "emitb/emitw/emitl/emitq/emit and dq append exactly 1/2/4/8/n bytes, the little-endian representation of the value, at the cursor of the current page and advance the cursor by that amount.", "quantifier": "all values, all states", "why_tests_cant": "2^64 values and all states", "anchors": ["monoasm/src/jit_memory.rs: emitb, emitw, emitl, emitq, emit", "monoasm_macro/src/asm.rs: Inst::I64, Inst::F64"]}
{"id": "C33", "title": "xchg exchanges the two written operands", "statement": "xchgq assembles, for every pair of registers and memory operands, to an instruction exchanging exactly the two written operands (nop only when both are rax); sizes other than quad word and two memory operands are rejected at compile time.", "quantifier": "all operand pairs", "why_tests_cant": "short forms for rax interact with REX", "anchors": ["monoasm_macro/src/asm.rs: Xchg", "monoasm/src/jit_memory.rs: enc_rexw_o"]}
{"id": "C34", "title": "Running the assembled code runs the source program", "statement": "For any instruction semantics of the decoded instructions, the machine that fetches and decodes bytes from the finalized memory takes the same steps as an interpreter of the source instruction list in which a branch to a label continues at the statement the label was bound to.", "quantifier": "all programs, all initial machine states, any number of steps", "why_tests_cant": "all executions of all programs", "anchors": ["monoasm_macro/src/lib.rs: monoasm", "monoasm_macro/src/asm.rs: compile", "monoasm/src/jit_memory.rs: finalize"]}
{"id": "C35", "title": "Every supported, in-range instruction is accepted", "statement": "If registers are in range, the memory operand is encodable, the immediate is in range for the instruction and the page has room, assembling does not panic.", "quantifier": "all instructions and operands", "why_tests_cant": "absence of panics over the whole operand space", "anchors": ["monoasm_macro/src/asm.rs: compile", "monoasm/src/jit_memory.rs: encode, sib, enc_o"]}
{"id": "C36", "title": "CodePtr arithmetic is consistent with label addresses", "statement": "For code pointers of this JitMemory, b - a is the signed distance, a + (b - a) = b when b is not below a, and comparison agrees with the sign of the difference; the difference of two pointers into one JitMemory always fits in 32 bits.", "quantifier": "all pairs of pointers", "why_tests_cant": "64-bit value space", "anchors": ["monoasm/src/lib.rs: CodePtr Sub, Add, PartialOrd", "monoasm/src/jit_memory.rs: get_current_address, get_label_address"]}
{"id": "C37", "title": "With real registers and encodable memory operands, assembling is exactly the function instruction -> encoding", "statement": "For every instruction (other than cvttsd2siq) whose registers are real registers and whose memory operand is encodable, on a page with room: if the written operands denote an x86-64 instruction, assembling succeeds and appends bytes that decode to that instruction and changes nothing else of memory, cursors, other pages or constants; if they denote none (an immediate out of range, a shift count not in cl), assembling panics with the range error.", "quantifier": "every instruction, every operand, every run-time value, every assembler state", "why_tests_cant": "the whole operand and state space; refines C01-C06 and C35 to an equivalence", "anchors": ["monoasm_macro/src/asm.rs: compile", "monoasm/src/jit_memory.rs: encode"]}
{"id": "C38", "title": "The input language is exactly the documented grammar and three listed additions", "statement": "A token sequence is read as an instruction by monoasm! if and only if it starts with a statement of the grammar: mnemonic, operands separated by commas, semicolon, or a label and a colon. The grammar is the documented syntax plus: a minus sign before a name is ignored, a register name after base + index is a label, and (without overflow checks) a negated -2^31 stays -2^31. Every statement has exactly one reading.", "quantifier": "all token sequences, all following tokens", "why_tests_cant": "unbounded input language, lookahead of one or two tokens", "anchors": ["monoasm_macro/src/inst.rs: Parse for Stmts, Inst, RmOperand, RmiOperand, RiOperand, ImmOperand, XmOperand, MovOperand", "monoasm_macro/src/parse.rs: Register, Xmm, IndAddr, Disp, Dest, Immediate"]}
{"id": "C39", "title": "Source text assembles to code that disassembles to the same text", "statement": "A block written in the documented syntax (no cvttsd2siq, no roundpd with a label operand, operands that exist, no expression using a variable named imm) is accepted, and once its labels are linked by finalize the memory from the cursor on disassembles, statement by statement, to the instructions written, with every branch and rip-relative operand pointing at its label.", "quantifier": "all source blocks, all assembler states, all later histories", "why_tests_cant": "composition of parser, code generation, encoder and linker", "anchors": ["monoasm_macro/src/lib.rs: monoasm", "monoasm_macro/src/asm.rs: compile", "monoasm/src/jit_memory.rs: finalize"]}
{"id": "C40", "title": "The align calls move only the cursor, to the next multiple", "statement": "align4, align8, align16 and align_page never fail; they set the cursor of the page they are called on to the least multiple of 4, 8, 16 or 4096 that is not below it, never past the end of the page, and change nothing else: no byte of memory, no other page, no label, no pending constant. The byte emitted next lies at an address that is a multiple of the alignment.", "quantifier": "all reachable states, both forms of the call (selected page, jit[Page(n)])", "why_tests_cant": "every cursor position and every history", "anchors": ["monoasm/src/jit_memory.rs: align4, align8, align16, align_page"]}
{"id": "C41", "title": "Code is executable and data is not", "statement": "Every byte of the two code pages is readable, writable and executable, every byte of the data page is readable and writable but not executable, and no memory outside the three pages is re-protected; in particular every byte an instruction assembles to is executable and no byte of a placed datum is.", "quantifier": "all positions of all pages, all reachable states", "why_tests_cant": "protections are per address over 768 MB; a test probes single addresses", "anchors": ["monoasm/src/jit_memory.rs: new"]}
{"id": "C42", "title": "Every mnemonic the README lists can be used", "statement": "For every mnemonic listed as supported in README.md there are operands with which the macro reads the statement and expands it.", "quantifier": "all listed mnemonics, any notion of Rust expression, overflow checks on or off", "why_tests_cant": "the tests use a fraction of the listed mnemonics", "anchors": ["README.md: supported instructions", "monoasm_macro/src/inst.rs: Parse for Inst", "monoasm_macro/src/asm.rs: compile"]}
{"id": "C43", "title": "What the macro refuses to expand is exactly what x86-64 lacks and six listed forms", "statement": "A statement that parses fails to compile if and only if its operands have a combination no x86-64 instruction has (two memory operands, immediate destination, lea without address or register, immediate into xmm) or it is one of: dq with a negative float or one too large for a double, xchg of 32, 16 or 8 bits, imul register with immediate, jmp to a numeric displacement, movq register with an immediate annotated dword/word/byte, movq memory with an annotated immediate.", "quantifier": "all token sequences that parse", "why_tests_cant": "unreachable!/unimplemented! arms of the code generator over the whole operand grammar", "anchors": ["monoasm_macro/src/asm.rs: compile, movq, movl, movw, movb, binary_op, shift_op, count_op"]}
{"id": "C44", "title": "Assembled programs run on an x86-64 processor as written", "statement": "With the instruction semantics of the Intel manual for the integer, control-flow, stack and xmm-move instructions, a processor whose memory holds a linked block executes, step for step, what the written statements say (labels standing for the statement that follows them), for as long as the program does not overwrite its own code. Fetches go through the processor's own memory.", "quantifier": "all programs without cvttsd2siq or roundpd with a label operand, all assembler states and histories, all machine states, any number of steps", "why_tests_cant": "unbounded executions of unbounded programs", "anchors": ["monoasm_macro/src/lib.rs: monoasm", "monoasm_macro/src/asm.rs: compile", "monoasm/src/jit_memory.rs: encode, finalize"]}
{"id": "C45", "title": "The Fibonacci function of the README computes Fibonacci numbers", "statement": "For every address the memory is allocated at and whatever it contained, the program of the README assembles, its label is the first address of the code page, and calling that address with n in rdi returns to the caller with the n-th Fibonacci number modulo 2^64 in rax, restoring rbx, rbp, r12-r15, the stack pointer and all memory outside the 64(n+1) bytes of stack it uses.", "quantifier": "all n, all allocation addresses, all machine states with that much stack", "why_tests_cant": "the test suite calls it with one argument", "anchors": ["README.md: example", "monoasm/src/jit_memory.rs: encode, finalize, get_label_addr"]}
{"id": "C46", "title": "The functions of the test suite compute the right result for every argument", "statement": "Each function that monoasm/tests assembles (64- and 32-bit division, sign extension, bit counts of registers and of a value in the data page, 32-bit shifts and rotates, andpd/xorpd on the sign bit, conversion of a double to i64, rounding up, minimum and maximum of doubles), assembled at any address and called in any machine state, returns to its caller with the mathematically right result for every argument for which there is one, with the stack pointer and callee-saved registers restored and no memory written but its own data.", "quantifier": "all arguments, all allocation addresses, all machine states", "why_tests_cant": "the tests try one or a few arguments each", "anchors": ["monoasm/tests/*.rs", "monoasm_macro/src/lib.rs: monoasm", "monoasm/src/jit_memory.rs: finalize"]}
{"id": "C47", "title": "Assembling is a total function of arbitrary operands", "statement": "For every instruction the macro expands, with any register numbers, index registers and displacements: on a page with room it is accepted if and only if, after taking register numbers modulo 16 (a number that is 16 modulo 256 is rip), leaving out an index register rsp and taking displacements modulo 2^32, the operands denote an x86-64 instruction; its bytes then decode to exactly that instruction (cvttsd2siq: to the 32-bit conversion) and nothing else changes. Otherwise assembling panics.", "quantifier": "every instruction, every operand value in Z, every assembler state", "why_tests_cant": "operand values outside the documented range are never tested", "anchors": ["monoasm_macro/src/asm.rs: compile", "monoasm/src/jit_memory.rs: encode, sib, rex, enc_o"]}
{"id": "C48", "title": "Blocks of arbitrary operands are assembled, linked and executed as they are taken", "statement": "A block of statements with any operands (registers out of range, any displacement, cvttsd2siq, roundpd with a label) that fits on the page and whose labels exist is accepted if and only if each instruction, taken as C47 says, is an x86-64 instruction. Once its labels are linked its bytes decode, statement by statement, to those instructions with every label operand pointing at the label (the label operand of roundpd: one byte after it), and any machine, in particular the x86-64 processor, executes them step for step.", "quantifier": "all blocks the macro expands whose expressions do not mention a variable imm, all assembler states and histories, all machine states, any number of steps", "why_tests_cant": "operands outside the documented range in whole programs", "anchors": ["monoasm_macro/src/lib.rs: monoasm", "monoasm_macro/src/asm.rs: compile", "monoasm/src/jit_memory.rs: encode, write_reloc, finalize"]}
{"id": "C49", "title": "Constants, data and jump tables are what the code reads at run time", "statement": "Code that refers to the label of a constant, of a datum or of a stored absolute address, assembled anywhere in a history after the call that created it and linked by any later finalize, finds it: on the processor an operand rip + label (of any instruction but roundpd) reads exactly the bytes given to the constant, movq and movsd load that value, a store goes to the bytes of the datum, and jmp through a stored absolute address continues at the statement the label of which was stored. The constant lies inside the allocation.", "quantifier": "all blocks (any operands), all constants and data, all histories before, between and after, all machine states that still hold the code and the constant", "why_tests_cant": "composition of constant pools, relocation, encoding and execution", "anchors": ["monoasm/src/jit_memory.rs: const_f64, const_i64, abs_address, data_i64, finalize, fill_relocs", "monoasm_macro/src/asm.rs: compile"]}
{"id": "C50", "title": "Bytes are read and written by position, one byte of one page at a time", "statement": "jit[pos] and jit[Page(n)][pos] read exactly the byte at that position of the selected page or of page n, change nothing, and give back every byte that was emitted there; assigning to them changes that byte and nothing else; a position at or past the page size, or one moved below zero with Pos + i32, panics without touching memory, as does a page that does not exist. The positions in code_block are ordered, so their differences never overflow, and every position between them can be computed and read.", "quantifier": "all positions, all pages, all states (for code blocks: all reachable states), overflow checks on or off", "why_tests_cant": "bounds at 2^28 and wrap-around at 2^64 are never exercised", "anchors": ["monoasm/src/jit_memory.rs: Index<Pos>, IndexMut<Pos>, Index<Page>, IndexMut<Page>", "monoasm/src/lib.rs: Pos"]}
{"id": "C51", "title": "A caught panic costs nothing that was there before", "statement": "After any sequence of calls in which every panic is caught, each call, whether it returns or panics, leaves all labels valid and bound ones bound, never hands out a label twice, moves no cursor back, changes no byte below a cursor that is not a field waiting for its label (calls that overwrite code aside), and keeps the references, constants, data and code blocks that wait for the next finalize; a finalize that returns has placed every constant created before it.", "quantifier": "all histories of calls with all panics caught, all states reached", "why_tests_cant": "states behind a panic are never tested, and the interesting ones need a full 256 MiB page", "anchors": ["monoasm/src/jit_memory.rs: finalize, resolve_constants, fill_relocs, save_reloc, emitl"]}
{"id": "C52", "title": "The scope of the expansion is exactly one variable, imm", "statement": "Each expression in a block is evaluated in the caller's variables, except that after the expression of an immediate operand the name imm stands for the value of that immediate (as an i64) in the other operands of the same statement and in all statements after it, until the next immediate. Replacing every expression by the value it thus has gives a block of literals that does exactly the same in every state (same bytes, labels and panics), and its disassembly and execution are those of C48. A block that does not mention imm is evaluated in the caller's variables throughout.", "quantifier": "all blocks, all expressions (any function of the variables), all assembler states and histories, all machine states, any number of steps", "why_tests_cant": "name capture shows only for one particular variable name", "anchors": ["monoasm_macro/src/asm.rs: compile (let imm)", "monoasm_macro/src/lib.rs: monoasm"]}
{"id": "C53", "title": "Each embedded expression is evaluated exactly once", "statement": "When a block is executed, each Rust expression embedded in it is evaluated exactly once, whatever it does to the caller's variables, in a fixed order: statement by statement, an immediate operand first, then the others, where a memory operand is its base, its displacement and its index. The block assembles the instructions with those values: the same bytes, labels and panics as the block of literals.", "quantifier": "all blocks, all expressions with any effect on the caller's state (that do not leave the block or touch the assembler), all assembler states", "why_tests_cant": "duplicated evaluation is invisible unless an expression has effects", "anchors": ["monoasm_macro/src/asm.rs: compile, movq, xchg, testq, testb", "monoasm_macro/src/parse.rs: ToTokens", "monoasm_macro/src/lib.rs: monoasm"]}
{"id": "C54", "title": "A program assembled in several blocks runs as its source", "statement": "A program may be assembled in any number of monoasm! blocks, on any pages, in any order, with any other calls, finalizes and caught panics between them, its blocks jumping to and calling each other through labels bound before or after. If no label is bound twice and all labels it refers to are bound, then after a last finalize every block is in memory as its statements, with the address each label ends up at put in, and an interpreter of the source, for which a branch goes to the statement of whatever block that defines the label and a block runs on into the one that follows it in memory, takes the same steps as the machine, in particular as the x86-64 processor.", "quantifier": "all histories from all reachable states, all blocks (any operands and expressions), all machine states, any number of steps", "why_tests_cant": "linking across blocks, pages and finalizes composes over unboundedly many histories", "anchors": ["monoasm/src/jit_memory.rs: finalize, fill_relocs, bind_label, select_page", "monoasm_macro/src/lib.rs: monoasm", "monoasm_macro/src/asm.rs: compile"]}
{"id": "C55", "title": "A block left by one of its expressions leaves no part of an instruction", "statement": "When an expression in a block does not return (?, return, break, or a panic of its own, caught outside), the assembler is as the statements before it made it: their instructions are complete, and nothing of the statement with the expression has been emitted, so that assembling may go on. The assembler is in a state that calls could have reached.", "quantifier": "all blocks, all expressions with any effect on the caller's state, leaving at any evaluation, all assembler states", "why_tests_cant": "expressions that fail are never tested", "anchors": ["monoasm_macro/src/asm.rs: compile", "monoasm_macro/src/lib.rs: monoasm"]}
{"id": "C56", "title": "A program that grows and is patched while it lives runs as its current source", "statement": "Code that has been finalized may be patched with apply_jmp_patch or apply_jmp_patch_address at a label in front of a direct jump or call, more blocks may be assembled and finalized afterwards, patched again, and so on in any order. At every point all blocks assembled so far are in memory where they were first put, apart from each other, each as its current source: the statements as written, with every patched jump or call going to the label it was last patched to. An interpreter of that source takes the same steps as the machine, in particular as the x86-64 processor, from any instruction, so a program interrupted between two instructions goes on after a patch or a growth as its new source.", "quantifier": "all histories of growths and patches from all reachable states, all blocks (any operands and expressions), all machine states, any number of steps", "why_tests_cant": "patching composes with later assembling, linking and patching over unboundedly many histories", "anchors": ["monoasm/src/jit_memory.rs: apply_jmp_patch, apply_jmp_patch_address, finalize, fill_relocs", "monoasm_macro/src/lib.rs: monoasm"]}
{"id": "C57", "title": "An expression that uses the assembler sees it as of the start of its statement", "statement": "The expressions of a block may use the assembler jit that the block assembles with. An expression that reads it (jit.get_current_address() and the like) sees it as the statements before left it, so that the current address is that of the statement; what an expression emits comes before its statement, whole, and the statement is assembled with the values of its expressions. If the expressions only make calls, the assembler stays in a state that calls could have reached.", "quantifier": "all blocks, all expressions with any effect on the caller's state and any reading of or calls on the assembler, all assembler states", "why_tests_cant": "expressions that use the assembler are never tested", "anchors": ["monoasm_macro/src/lib.rs: monoasm", "monoasm_macro/src/asm.rs: compile"]}
{"id": "C58", "title": "A reference goes to where its label was bound last before it is linked", "statement": "bind_label may be called for a label that is bound already; this is accepted and moves this label only. All references to a label that still wait when finalize is called, whether made before, between or after its bindings, go to the last binding before that finalize, also those written right behind an earlier one. A reference that has been linked stays with that binding whatever is done later.", "quantifier": "all histories of calls with all panics caught from all reachable states, any number of bindings, all references", "why_tests_cant": "labels bound twice are never tested, and the outcome depends on the order of bindings, references and finalizes", "anchors": ["monoasm/src/jit_memory.rs: bind_label, bind_label_with_page, fill_relocs, finalize"]}
{"id": "C59", "title": "The virtual machine of the README compiles every program correctly", "statement": "Any program of functions put together with the methods of struct VM in the README (constants, variables, addition, subtraction, comparison, jumps, calls, recursion, any number of functions and labels), read as a program of a virtual machine with four registers and local variables, means the same as its machine code: wherever the memory is allocated, calling the address of a function with an argument for which the program returns v comes back to the caller with v in rax, the stack pointer popped, callee-saved and xmm registers and all memory outside the stack the program needs as they were. Every such program that is small enough for the page is assembled without a panic.", "quantifier": "all programs of the virtual machine, all arguments for which they return, all allocation addresses, all machine states with enough stack apart from the code", "why_tests_cant": "the README has one program and one argument; programs, arguments and recursion depths are unbounded", "anchors": ["README.md: struct VM", "monoasm_macro/src/lib.rs: monoasm", "monoasm/src/jit_memory.rs: bind_label, finalize, get_label_addr"]}
{"id": "C60", "title": "Generated code calls functions outside it as the calling convention asks", "statement": "A program of the README's virtual machine may also call functions outside the generated code (method puts: movq rdi, R(..); movq rax, (address); call rax), such as those of monoasm::test. Whatever these functions do within the System V calling convention (destroy all registers that are not callee-saved, flags, the stack below them and memory of their own), the code calls them in the order and with the arguments the program says, with the stack aligned to 16 bytes at each call, and returns the value of the program, callee-saved registers and all other memory as they were.", "quantifier": "all programs of the virtual machine, all functions outside that keep to the convention, all arguments, allocation addresses and machine states with enough stack", "why_tests_cant": "no test calls a function from generated code; alignment depends on the number of variables and the recursion depth", "anchors": ["README.md: struct VM, puts", "monoasm/src/test.rs: PUTINT", "monoasm_macro/src/lib.rs: monoasm"]}
{"id": "C61", "title": "Assemblers in one process do not interfere", "statement": "A process may have any number of JitMemory objects and call them in any order, panics caught, while generated and other code writes to memory. What the calls on one of them return or panic with, and its page selection, cursors, labels, references, constants and code blocks, depend on the calls on it only, whatever is written to memory. If the allocations do not overlap, raw jump patches point into the patching object's own allocation and no other code writes to the allocation of the object, then its bytes, too, are what its own calls alone make them, nothing its methods return can tell the difference, and its program runs as its source. The calls write nowhere but in the allocations of the objects called.", "quantifier": "all interleavings of calls on any number of objects with any changes of memory by other code, all allocation addresses, all machine states, any number of steps", "why_tests_cant": "interference would show only in particular interleavings and layouts; the tests use one object at a time", "anchors": ["monoasm/src/jit_memory.rs: JitMemory, MemPage, finalize, apply_jmp_patch_address", "monoasm_macro/src/lib.rs: monoasm"]}
{"id": "C62", "title": "Expressions may use the assembler and leave the block at any point", "statement": "The expressions of a block may use the assembler and also leave the block (?, return, break, panic). In a block of statements without prefix and outside the four forms of C53, the expressions of each statement are evaluated once, in order; an immediate that is out of range and a shift count register other than cl are refused before the remaining operands are evaluated (the text of the panic shows the distance of a call and the immediate of a byte operation, which are evaluated again for it, and the register of movl and movb; they may then leave); the first expression that leaves ends the block, with the assembler as the statements before and the expressions up to it made it and nothing of its own statement written; a statement none of whose expressions leaves is assembled with their values. In every block the assembler stays in a state that calls could have reached if the expressions only make calls.", "quantifier": "all blocks, all expressions with any effect on the caller's state and the assembler, leaving at any evaluation, all assembler states", "why_tests_cant": "expressions that use the assembler or leave are never tested", "anchors": ["monoasm_macro/src/lib.rs: monoasm", "monoasm_macro/src/asm.rs: compile"]}
{"id": "C63", "title": "Every assembler of a process has memory of its own for as long as the process lives", "statement": "A process may make and drop any number of assemblers, while other code allocates, frees and protects memory of its own. JitMemory::new returns only if the memory was allocated, not at null, and protected, and panics otherwise; it never changes the protection of memory already in use. At every later point the assembler's three pages are allocated to it alone, aligned to the page size, apart from those of every other assembler, the two code pages readable, writable and executable and the data page not executable, also after the assembler has been dropped, so that addresses of its code stay good.", "quantifier": "all histories of making and dropping assemblers, with any addresses returned by the allocator, any failures of allocation and protection, and any allocations of other code; all sizes of the operating system's pages that divide the page size", "why_tests_cant": "allocation and protection failures and drops are never tested", "anchors": ["monoasm/src/jit_memory.rs: JitMemory::new, MemPage", "monoasm/src/lib.rs: PAGE_SIZE"]}
{"id": "C64", "title": "Code may be extended and patched while it runs", "statement": "A program made of blocks may be interrupted between any two of its instructions, or leave its blocks by a call or return, while other code of the process writes to memory, assembles and finalizes more blocks, patches direct jumps and calls (also one the program is about to execute), and lets the program go on where it was or anywhere else, any number of times and in any order. As long as neither the program nor the other code writes into the blocks or into fields of unresolved references, after each of these the processor, fetching from the memory that the assembler writes, is at the instruction and in the state that an interpreter of the current source is in; nobody has to move because of code that was added or patched.", "quantifier": "all interleavings of running, other code, growths and patches, from all reachable states, all blocks, all machine states, any number of steps", "why_tests_cant": "running code that is patched meanwhile depends on the interleaving, of which there are unboundedly many", "anchors": ["monoasm/src/jit_memory.rs: apply_jmp_patch, apply_jmp_patch_address, finalize, fill_relocs", "monoasm_macro/src/lib.rs: monoasm"]}
{"id": "C65", "title": "A session that stays within its pages never panics", "statement": "Count for each call the bytes it can take on its page: 1, 2, 4, 8 for the emits, one less than the alignment for the aligns, for each statement of a block what C76 allows (12 for an instruction with operands), the length of a constant or datum and one less than its alignment; labels and page numbers that are passed exist, and the statements of blocks are data, labels or x86 instructions with operands in range. If the sums stay within PAGE_SIZE bytes on every page, then all calls return, finalize at any points included, and the labels returned are 0, 1, 2 and so on, wherever the memory is allocated and whatever it contained; the same goes for any reached state with what is left of its pages. With one byte more the last call can panic.", "quantifier": "all sequences of calls that only count themselves, all blocks, all allocation addresses and memory contents, all reached states", "why_tests_cant": "an overflow of a page needs 256 MB of code and constants in some order; no test comes near it", "anchors": ["monoasm/src/jit_memory.rs: emitb, emitw, emitl, emitq, align4, align8, align16, align_page, const_f64, const_i64, const_i32, constant, abs_address, data_i64, data_i32, finalize", "monoasm_macro/src/lib.rs: monoasm"]}
{"id": "C66", "title": "The five names a block takes from its caller", "statement": "The expressions of a block see the caller's variables, of whatever names and types, with exactly five exceptions: jit is the assembler of the block; after a statement with an immediate, imm is that immediate as an i64, and in the other operands of that statement it has the narrowest integer type that the expansion tries for it; after movq between an xmm and a general register op1 or op2, and after movq of an immediate to a register rm_op, is the register operand as an Rm. Replacing every expression by the value it has in this scope gives a block of literals that does exactly the same in every state. A label may not have a name declared in its statement or before: such a program, and no other, fails to compile for its labels. Expressions that mention none of the five names have the values they have at the call site; those that mention none but jit and the number imm mean what the other properties say, also if they have effects, use the assembler or leave the block.", "quantifier": "all blocks, all scopes of the caller, all values of the expressions, all states", "why_tests_cant": "a test has particular variables; which names and types collide depends on the form of each statement", "anchors": ["monoasm_macro/src/lib.rs:22-29", "monoasm_macro/src/asm.rs:348-420", "monoasm_macro/src/asm.rs:420-560", "monoasm_macro/src/parse.rs:120-370"]}
{"id": "C67", "title": "The bytes are those of the GNU assembler", "statement": "What an accepted instruction with operands in range appends to the page is byte for byte what the GNU assembler writes for the same instruction in Intel syntax (shortest displacement and immediate, the al forms, one-bit shifts, short xchg, no needless REX prefix, the same of two equivalent register forms), with exactly these exceptions: movq of an immediate that fits 32 bits to a register is 10 bytes instead of 7, add/or/adc/sbb/and/sub/xor/cmp of 2, 4 and 8 bytes with rax and an immediate that does not fit 8 bits are one byte longer, and cvttsd2siq is encoded wrongly (C01). A block appends the bytes of its statements one after the other; distances to labels are 0 until finalize.", "quantifier": "all instructions, registers, addressing forms, displacements, immediates, shift counts, all blocks, all states", "why_tests_cant": "gen.rb of the repository compares with the GNU assembler a few displacements and immediates, and not for all instructions", "anchors": ["gen.rb", "monoasm_macro/src/asm.rs: compile", "monoasm/src/jit_memory.rs: enc_rexw_mr, enc_rexw_mi, encode, modrm, rex_none"]}
{"id": "C68", "title": "An expression in parentheses has its own value", "statement": "Wherever an operand may be an expression in parentheses (immediate, displacement after + or -, distance of a call, number of a register), the expansion evaluates the expression by itself and converts the value to the type wanted at the place, and it compiles if the expression has a type that can be converted. This holds for immediates and register numbers; displacements and distances are expanded to the expression followed by 'as i32' or 'as i64' without parentheses, so that the conversion binds to the last operand only: the claim then holds for expressions without an operator outside parentheses, for those whose operands have the type i32 (i64), and, without overflow checks, for literals combined by +, -, *, &, | or ^ with a last operand of at least 32 bits; otherwise the value can differ (100 / n) or the program does not compile (i + i with i: usize).", "quantifier": "all token sequences that are Rust integer expressions, all types and values of the variables, with and without overflow checks", "why_tests_cant": "an expression with an operator as displacement, of a type other than i32, is never tested; whether the value differs depends on it", "anchors": ["monoasm_macro/src/parse.rs:480-488", "monoasm_macro/src/parse.rs:444-450", "monoasm_macro/src/asm.rs:287-294", "monoasm_macro/src/asm.rs: compile"]}
{"id": "C69", "title": "A program whose labels are bound again runs as its source", "statement": "A program may be assembled in any number of monoasm! blocks, with any other calls, finalizes and caught panics between them, and may bind a label again, in the same block, in another one or by bind_label. A reference to a label stands for the place where the label was bound last before the first finalize, after the reference was assembled, that finds the label bound; later bindings do not move it. With these targets each block is in memory as its statements, and every step of an interpreter of the source is a step of the processor as long as the program does not change its own blocks. A block that is finalized right after it has been assembled therefore goes to its own definitions of labels (those that are not labels of constants yet to be placed), and functions may share label names if each is finalized before the next.", "quantifier": "all histories of calls, all blocks, all label bindings, all machine states, any number of steps", "why_tests_cant": "the tests bind every label once; what a reference stands for depends on the order of bindings and finalizes", "anchors": ["monoasm/src/jit_memory.rs: bind_label, bind_label_with_page, finalize, fill_relocs, DestLabel", "monoasm_macro/src/lib.rs: monoasm"]}
{"id": "C70", "title": "When finalize is called does not matter", "statement": "Calls of finalize may be made at any points of a history or put off to its end. If those in the middle come when no constant or datum is to be placed, and labels are bound only while they are not bound, then with them and without them every other call returns the same label or panics alike, the history comes to its end in both cases or in neither, and after the finalize at the end memory, cursors, selected page, labels, unresolved references and everything that later calls do are the same; only the intervals that finalize records as code blocks differ. Either condition is needed: a label bound again after an early finalize leaves the jumps linked by it at the first place, and a constant is placed by the first finalize that comes.", "quantifier": "all histories of calls, with calls of finalize at any points, all blocks, all reached states, all memory contents", "why_tests_cant": "a test calls finalize at one point; that the bytes do not depend on it is about pairs of histories", "anchors": ["monoasm/src/jit_memory.rs: finalize, resolve_constants, fill_relocs, bind_label"]}
{"id": "C71", "title": "The same session in another allocation gives the same code", "statement": "Where the memory of the assembler lies and what it held before do not matter: in two assemblers the same calls return the same labels or panic alike, come to their end in both or in neither, and leave the same selected page, cursors, code blocks, labels and unresolved references. Counted from the start of the allocation, every byte is the same in both, or belongs to eight bytes that hold in each the address of the same place (abs_address), or was not written in either. A session without abs_address therefore gives the same image, wherever it is.", "quantifier": "all histories of calls, all blocks, all pairs of addresses and of memory contents", "why_tests_cant": "a test runs in one allocation; that code and constants do not depend on it is about pairs of runs", "anchors": ["monoasm/src/jit_memory.rs: new, finalize, fill_relocs, save_reloc, save_absolute_reloc, resolve_constants, abs_address"]}
{"id": "C72", "title": "The numbers of labels do not matter", "statement": "Two sessions that make the same calls but create their labels in another order, earlier or later (each before it is used), or create labels that are never used: every call answers (with the corresponding label, if with one) or panics alike, both sessions survive or neither, and every byte of memory, the cursors, the code blocks and the selected page are equal at the end; what each label is bound to, what still refers to it, and what waits for finalize correspond.", "quantifier": "all pairs of histories of public calls that differ so, with caught panics, any correspondence of labels, all allocations and contents", "why_tests_cant": "tests create labels in one order, right before they use them, and compare no two sessions", "anchors": ["monoasm/src/jit_memory.rs: label, bind_label, save_reloc, fill_relocs, resolve_constants, finalize", "monoasm/src/lib.rs: DestLabel, LabelInfo, Relocations"]}
{"id": "C73", "title": "The order of work on different pages does not matter", "statement": "In a session that selects a page before each call, calls that emit code or bind labels may change places with neighbouring ones that work on another page, provided they bind no label in common: code for several pages may be written in turn or one page after the other. Both sessions survive or neither; if they do, the calls on each page answer and panic alike, and memory, cursors, constants, data, code blocks and bound labels are equal, and the same references wait for a label.", "quantifier": "all pairs of histories of public calls that differ so (with labels, constants, finalizes and caught panics in between), all allocations and contents", "why_tests_cant": "the number of interleavings is exponential and a leak between pages shows in few of them", "anchors": ["monoasm/src/jit_memory.rs: select_page, Index<Page>, emitb, save_reloc, bind_label, bind_label_with_page, fill_relocs, finalize", "monoasm_macro/src/lib.rs: monoasm"]}
{"id": "C74", "title": "The linked bytes are those of a two-pass assembler", "statement": "A block of instructions whose registers and memory operands exist (no cvttsd2siq, no roundpd with a label; labels in memory operands relative to rip), assembled after any history and followed by any calls, a finalize among them, is in memory byte for byte what a two-pass assembler writes at that address, given the values of the expressions and the addresses of the labels outside the block: the first pass adds up the sizes of the statements and so finds the labels of the block, the second writes each statement with the encoding of the GNU assembler (but for the forms of C67) and the distance from its end to each label in four bytes. The labels of the block are at the addresses of the first pass. If labels are bound several times or elsewhere, the bytes are those of the second pass with the addresses that the references were linked to.", "quantifier": "all blocks, values of expressions, histories before and after, label addresses, allocations", "why_tests_cant": "the tests compare results of running code; the bytes depend on all sizes and distances at once", "anchors": ["monoasm_macro/src/asm.rs: compile", "monoasm/src/jit_memory.rs: bind_label, save_reloc, enc_d, encode, finalize, fill_relocs", "monoasm_macro/src/lib.rs: monoasm"]}
{"id": "C75", "title": "An operand in a message is the operand written", "statement": "The text that a panic message of the macro or of the generated code prints for an operand, read as source, is an operand with the meaning of the one written.", "quantifier": "all operands of all five kinds (register or memory, with immediates, xmm, mov) that mean something", "why_tests_cant": "the tests never look at a message", "anchors": ["monoasm_macro/src/parse.rs: Display for Register, Xmm, IndAddr, Disp", "monoasm_macro/src/inst.rs: Display for RmOperand, RmiOperand, RiOperand, ImmOperand, XmOperand, MovOperand"]}
{"id": "C76", "title": "No instruction is longer than 12 bytes", "statement": "An assembled instruction, whatever its operands, takes at least 1 and at most 12 bytes (the architecture allows 15); a label takes none, a datum 8, jumps and calls of a label 5, conditional jumps 6, instructions without operands 1 or 2, always. A block takes no more than the sum, and panics because the page is full only if the page has no room for the sum.", "quantifier": "all instructions, operands, expressions, blocks and states", "why_tests_cant": "the longest forms are reached by few combinations of operands, and the tests never fill a page", "anchors": ["monoasm_macro/src/asm.rs: compile", "monoasm/src/jit_memory.rs: encode, enc_d, emitb"]}
{"id": "C77", "title": "The room a block needs does not depend on the place", "statement": "A block that is assembled in some state is assembled in every state in which as many bytes are left on the selected page and its labels exist, to the same bytes (fields of label references hold 0 until finalize), even if it then ends at the last byte of the page; with one byte less left it panics because the page is full, and for no other reason. A block rejected in some state for another reason is rejected in all states with the same labels, for that reason or because the page is full first. A block of statements that are, as taken, labels, data or x86 instructions is assembled whenever the bytes of C76 are left.", "quantifier": "all blocks, expressions, pairs of states (addresses, selected pages, contents, positions, bindings)", "why_tests_cant": "the tests assemble every block once, at the start of a page", "anchors": ["monoasm_macro/src/asm.rs: compile", "monoasm/src/jit_memory.rs: emitb, emitw, emitl, emitq, encode, bind_label", "monoasm_macro/src/lib.rs: monoasm"]}
{"id": "C78", "title": "Exactly which sessions go through, and where each page ends", "statement": "Adding up sizes decides a session: the sizes that a two-pass assembler gives to the blocks, those of emitted bytes and alignments, and at each finalize the waiting constants and data in their order, each at the next multiple of its alignment. A session of calls that make sense (labels and pages exist; blocks as in C74) returns from all calls if and only if no page exceeds its size in this sum and every statement has code; the pages then end where the sum says, wherever the memory is and whatever it holds. Otherwise it stops at the first call that exceeds.", "quantifier": "all sessions of calls that make sense, all blocks and values of expressions, all reached states, allocations and contents", "why_tests_cant": "a sufficient number of bytes shows in a test, the exact one only at the end of a 256 MB page", "anchors": ["monoasm/src/jit_memory.rs: emitb, align4, align8, align16, align_page, constant functions, data functions, finalize, resolve_constants, select_page", "monoasm_macro/src/asm.rs: compile", "monoasm_macro/src/lib.rs: monoasm"]}
{"id": "C79", "title": "A session can be worked out on paper", "statement": "The address of every label after a session of calls that make sense (as in C78) can be told from the calls: labels of blocks are at the sums of the sizes of the first pass, labels bound by bind_label at the end of their page, labels of constants and data where the next finalize places them, the last of these counting. So can the memory: each block whose references are linked is at the planned place, as the second pass writes it with the address that each label has at the first finalize that finds it bound; each constant and datum has its bytes at the address of its label at the next finalize, and a constant of an address holds the address that the label it names has at the first finalize, from that one on, that finds it bound. None of this depends on what the memory held before, and on where it is only as stated.", "quantifier": "all sessions of calls that make sense, with any blocks, values of expressions, bindings (also repeated), constants, pages and finalizes; all allocations and contents", "why_tests_cant": "the tests check results of running code in one allocation; a wrong place shows only if something refers to it", "anchors": ["monoasm/src/jit_memory.rs: bind_label, bind_label_with_page, label, constant functions, data functions, abs_address, finalize, resolve_constants, fill_relocs, get_label_address", "monoasm_macro/src/asm.rs: compile", "monoasm_macro/src/lib.rs: monoasm"]}
