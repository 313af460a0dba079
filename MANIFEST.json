{
 "claims": [
  {
   "property": "C01",
   "status": "partial",
   "theorems": [
    "C01_partial",
    "C01_refuted"
   ],
   "note": "False when the index register is rsp (the index is dropped). Proved for all instructions whose registers are 0..15, whose memory operand is encodable, and whose address expressions do not mention a variable named imm."
  },
  {
   "property": "C02",
   "status": "partial",
   "theorems": [
    "C02_partial",
    "C02_cvttsd2siq",
    "C02_refuted"
   ],
   "note": "False for cvttsd2siq (no REX.W: always a 32-bit conversion), proved for all others; what cvttsd2siq encodes instead is proved."
  },
  {
   "property": "C03",
   "status": "partial",
   "theorems": [
    "C03_partial",
    "C03_refuted"
   ],
   "note": "False for index rsp; proved for every encodable memory operand."
  },
  {
   "property": "C04",
   "status": "proved",
   "theorems": [
    "C04_exact",
    "C04_rejected",
    "C04_accepted"
   ],
   "note": "For operands that exist (ordinary)."
  },
  {
   "property": "C05",
   "status": "partial",
   "theorems": [
    "C05_partial",
    "C05_refuted"
   ],
   "note": "Exact for every displacement that fits 32 bits; larger displacement expressions are truncated, not rejected."
  },
  {
   "property": "C06",
   "status": "proved",
   "theorems": [
    "C06"
   ],
   "note": ""
  },
  {
   "property": "C07",
   "status": "partial",
   "theorems": [
    "C07_partial",
    "C07_refuted"
   ],
   "note": "False for roundpd xmm,[rip+label],imm; proved for everything else."
  },
  {
   "property": "C08",
   "status": "partial",
   "theorems": [
    "C08_partial",
    "C08_refuted"
   ],
   "note": "False for blocks containing cvttsd2siq or roundpd with a label operand. Proved for all other blocks with encodable operands, any history before and after, any split over finalizes."
  },
  {
   "property": "C09",
   "status": "partial",
   "theorems": [
    "C09_partial",
    "C09_refuted"
   ],
   "note": "Only numbers congruent to 16 modulo 256 are certain to be rejected; others alias."
  },
  {
   "property": "C10",
   "status": "proved",
   "theorems": [
    "C10",
    "C10_first_finalize"
   ],
   "note": ""
  },
  {
   "property": "C11",
   "status": "proved",
   "theorems": [
    "C11_no_failure",
    "C11_pending",
    "C11_resolved_once"
   ],
   "note": "finalize fails exactly when the constants do not fit or an abs_address names a label that does not exist."
  },
  {
   "property": "C12",
   "status": "proved",
   "theorems": [
    "C12",
    "C12_other_panics"
   ],
   "note": "For any calls whatsoever, page overflows included."
  },
  {
   "property": "C13",
   "status": "proved",
   "theorems": [
    "C13",
    "C13_finalize"
   ],
   "note": ""
  },
  {
   "property": "C14",
   "status": "proved",
   "theorems": [
    "C14_cursor",
    "C14_memory",
    "C14_page",
    "C14_finalize",
    "C14_raw"
   ],
   "note": ""
  },
  {
   "property": "C15",
   "status": "proved",
   "theorems": [
    "C15",
    "C15_select",
    "C15_bytes",
    "C15_get_page",
    "C15_refused"
   ],
   "note": ""
  },
  {
   "property": "C16",
   "status": "proved",
   "theorems": [
    "C16",
    "C16_disjoint",
    "C16_stays",
    "C16_once"
   ],
   "note": ""
  },
  {
   "property": "C17",
   "status": "partial",
   "theorems": [
    "C17_partial",
    "C17_code_pages",
    "C17_untouched",
    "C17_page2_refuted"
   ],
   "note": "All but one clause: Page(2) can be constructed by the caller, and jit[Page(2)].emitb(..) writes to the data page; no other emitting call does."
  },
  {
   "property": "C18",
   "status": "proved",
   "theorems": [
    "C18",
    "C18_aligned"
   ],
   "note": ""
  },
  {
   "property": "C19",
   "status": "proved",
   "theorems": [
    "C19_fresh",
    "C19_bind",
    "C19_stable",
    "C16_stays",
    "C19_getters"
   ],
   "note": ""
  },
  {
   "property": "C20",
   "status": "proved",
   "theorems": [
    "C20",
    "C20_moves_nothing"
   ],
   "note": ""
  },
  {
   "property": "C21",
   "status": "proved",
   "theorems": [
    "C21",
    "C21_before",
    "C21_block"
   ],
   "note": ""
  },
  {
   "property": "C22",
   "status": "proved",
   "theorems": [
    "C22_as_slice",
    "C22_dump_first",
    "C22_dump"
   ],
   "note": ""
  },
  {
   "property": "C23",
   "status": "proved",
   "theorems": [
    "C23",
    "C23_survives",
    "C23_pending_lost"
   ],
   "note": ""
  },
  {
   "property": "C24",
   "status": "partial",
   "theorems": [
    "C24_partial",
    "C24_page1",
    "C24_refuted",
    "C24_data_refuted"
   ],
   "note": "True with page 0 selected. With page 1 selected include tests page 1 and the data page."
  },
  {
   "property": "C25",
   "status": "partial",
   "theorems": [
    "C25_partial",
    "C25_refuted",
    "C25_same_statement_refuted"
   ],
   "note": "False for expressions mentioning a caller variable named imm, which the expansion shadows; proved for all other expressions."
  },
  {
   "property": "C26",
   "status": "partial",
   "theorems": [
    "C26_partial",
    "C26_refuted",
    "C26_index_refuted"
   ],
   "note": "False for word-size arithmetic with an out-of-range immediate and for index register number 16."
  },
  {
   "property": "C27",
   "status": "proved",
   "theorems": [
    "C27",
    "C27_machine",
    "C27_set",
    "C27_cmov",
    "C27_jump"
   ],
   "note": "The accepted suffixes are those of the manual except nb, and except l and g in jumps; eq, lt, gt are additional names from the README."
  },
  {
   "property": "C28",
   "status": "proved",
   "theorems": [
    "C28",
    "C28_unknown"
   ],
   "note": ""
  },
  {
   "property": "C29",
   "status": "proved",
   "theorems": [
    "C29",
    "C29_block",
    "C29_show",
    "C29_show_block"
   ],
   "note": ""
  },
  {
   "property": "C30",
   "status": "partial",
   "theorems": [
    "C30_partial",
    "C30_index_partial",
    "C30_refuted",
    "C30_register_refuted",
    "C30_min_refuted"
   ],
   "note": "False for a name after a minus sign and, without overflow checks in the macro, for the literal -2147483648; proved for every other literal and every expression."
  },
  {
   "property": "C31",
   "status": "partial",
   "theorems": [
    "C31_position",
    "C31_position_block",
    "C31_split_partial",
    "C31_split_refuted"
   ],
   "note": "Position independence proved in full. Splitting holds unless a later expression mentions a variable named imm."
  },
  {
   "property": "C32",
   "status": "partial",
   "theorems": [
    "C32",
    "C32_emit",
    "C32_dq_int",
    "C32_dq_float_partial",
    "C32_refuted"
   ],
   "note": "proved for every call and every dq that compiles; false of dq with a negative float or one too large for a double, which does not compile (C32_refuted): the expansion is -1.5f64.to_ne_bytes(), the negation of an array"
  },
  {
   "property": "C33",
   "status": "proved",
   "theorems": [
    "C33",
    "C33_forms"
   ],
   "note": ""
  },
  {
   "property": "C34",
   "status": "partial",
   "theorems": [
    "C34_partial",
    "C34_refuted"
   ],
   "note": "As C08: false with cvttsd2siq, proved for all other programs, every instruction semantics, any number of steps."
  },
  {
   "property": "C35",
   "status": "proved",
   "theorems": [
    "C35"
   ],
   "note": ""
  },
  {
   "property": "C36",
   "status": "proved",
   "theorems": [
    "C36",
    "C36_current"
   ],
   "note": "The allocation lies in the lower half of the address space, as every user mapping does."
  },
  {
   "property": "C37",
   "status": "proved",
   "theorems": [
    "C37"
   ],
   "note": ""
  },
  {
   "property": "C38",
   "status": "proved",
   "theorems": [
    "C38",
    "C38_block"
   ],
   "note": ""
  },
  {
   "property": "C39",
   "status": "proved",
   "theorems": [
    "C39"
   ],
   "note": ""
  },
  {
   "property": "C40",
   "status": "proved",
   "theorems": [
    "C40",
    "C40_emit"
   ],
   "note": ""
  },
  {
   "property": "C41",
   "status": "proved",
   "theorems": [
    "C41_code",
    "C41_data",
    "C41_outside",
    "C41_emitted",
    "C41_datum"
   ],
   "note": ""
  },
  {
   "property": "C42",
   "status": "partial",
   "theorems": [
    "C42_partial",
    "C42_xchg",
    "C42_refuted"
   ],
   "note": "False for xchgl, xchgw, xchgb, which the README lists: the expansion panics for all operands (C42_refuted). Proved for every other listed mnemonic."
  },
  {
   "property": "C43",
   "status": "proved",
   "theorems": [
    "C43",
    "C43_impossible"
   ],
   "note": ""
  },
  {
   "property": "C44",
   "status": "proved",
   "theorems": [
    "C44"
   ],
   "note": "Syscall and int3 have no meaning in the machine and stop it."
  },
  {
   "property": "C45",
   "status": "proved",
   "theorems": [
    "C45"
   ],
   "note": ""
  },
  {
   "property": "C46",
   "status": "partial",
   "theorems": [
    "C46_div",
    "C46_idiv",
    "C46_divl_partial",
    "C46_divl_refuted",
    "C46_idivl",
    "C46_idivl_rem",
    "C46_cdq",
    "C46_popcntl",
    "C46_lzcntl",
    "C46_tzcntl",
    "C46_popcntq",
    "C46_lzcntq",
    "C46_tzcntq",
    "C46_shll",
    "C46_sall",
    "C46_shrl",
    "C46_sarl",
    "C46_roll",
    "C46_rorl",
    "C46_andpd",
    "C46_xorpd",
    "C46_cvttsd2si_partial",
    "C46_cvttsd2si",
    "C46_cvttsd2si_refuted",
    "C46_roundpd",
    "C46_minsd",
    "C46_maxsd"
   ],
   "note": "Proved for every function of the test suite and every argument, except: divl.rs faults for dividends from 2^31 on (cdq before an unsigned division), cvttsd2si.rs is right only for values from 0 to 2^31 (32-bit conversion); both refuted."
  },
  {
   "property": "C47",
   "status": "proved",
   "theorems": [
    "C47",
    "C47_accepted",
    "C47_ordinary",
    "C47_scales"
   ],
   "note": ""
  },
  {
   "property": "C48",
   "status": "proved",
   "theorems": [
    "C48",
    "C48_runs",
    "C48_listing",
    "C48_accepted",
    "C48_plain"
   ],
   "note": "the third operand of roundpd is a u8 and scale factors are 1, 2, 4, 8, as the macro guarantees (C47_scales)"
  },
  {
   "property": "C49",
   "status": "proved",
   "theorems": [
    "C49",
    "C49_found"
   ],
   "note": "the memory lies below 2^64 - 3 pages; the label of the constant is not bound again by the caller"
  },
  {
   "property": "C50",
   "status": "proved",
   "theorems": [
    "C50",
    "C50_emitted",
    "C50_write",
    "C50_back",
    "C50_page",
    "C50_blocks",
    "C50_before",
    "C50_add",
    "C50_order"
   ],
   "note": ""
  },
  {
   "property": "C51",
   "status": "partial",
   "theorems": [
    "C51_partial",
    "C51_finalize",
    "C51_fresh_partial",
    "C51_refuted",
    "C51_refuted_constant"
   ],
   "note": "False for a finalize that panics: the constants it took are lost, the next finalize returns without them (C51_refuted_constant); after an overflowing jump it loses every label and label() hands them out again (C51_refuted). Proved for every other call, and what a finalize keeps in every case (C51_finalize)."
  },
  {
   "property": "C52",
   "status": "partial",
   "theorems": [
    "C52_partial",
    "C52_two",
    "C52_blind",
    "C52_means",
    "C52_cpu",
    "C52_runs",
    "C52_accepted",
    "C52_refuted"
   ],
   "note": "False in general: imm has a narrower type in the operands beside an immediate, and jit, op1, op2 and rm_op are taken too (C52_refuted; C66 is exact). Proved where the expressions mention none of those and use only the number imm (C66_asm says so). typed: the third operand of roundpd is a u8 and scale factors are 1, 2, 4, 8"
  },
  {
   "property": "C53",
   "status": "partial",
   "theorems": [
    "C53_partial",
    "C53_once_partial",
    "C53_all",
    "C53_pure",
    "C53_frozen",
    "C53_refuted",
    "C53_code_refuted",
    "C53_panic_refuted"
   ],
   "note": "false of movq, testq and testb of a computed register R(e) and an immediate, and of xchg of two registers one of which is computed: they evaluate e twice or more (C53_refuted, C53_code_refuted), and of blocks that panic, whose message evaluates an operand (C53_panic_refuted). Proved for all other statements (the trace: of blocks that do not panic)"
  },
  {
   "property": "C54",
   "status": "proved",
   "theorems": [
    "C54",
    "C54_cpu"
   ],
   "note": ""
  },
  {
   "property": "C55",
   "status": "partial",
   "theorems": [
    "C55_partial",
    "C55_all",
    "C55_reached",
    "C55_stays",
    "C55_world",
    "C55_evaluated",
    "C55_refuted",
    "C55_next_refuted"
   ],
   "note": "false of instructions that begin with a prefix (16-bit operations, SSE, bit counts): the prefix is emitted before the operands are evaluated and stays behind (C55_refuted), which changes the instruction assembled next (C55_next_refuted). Proved for all other statements; C55_all says what is left in every case"
  },
  {
   "property": "C56",
   "status": "proved",
   "theorems": [
    "C56",
    "C56_cpu",
    "C56_grow",
    "C56_patch",
    "C56_run",
    "C56_jcc_refuted"
   ],
   "note": "for direct jumps and calls, as the property says; C56_jcc_refuted shows what the same calls do to a conditional jump"
  },
  {
   "property": "C57",
   "status": "partial",
   "theorems": [
    "C57_partial",
    "C57_write_partial",
    "C57_reached",
    "C57_refuted"
   ],
   "note": "false of instructions that begin with a prefix: the prefix is emitted before the operands are evaluated, so that they see the assembler one byte further (C57_refuted). Proved for all other statements (for changing expressions also without the four forms of C53)"
  },
  {
   "property": "C58",
   "status": "proved",
   "theorems": [
    "C58",
    "C58_kept",
    "C58_accepted",
    "C58_moves"
   ],
   "note": "for labels of label(), bound by bind_label, bind_label_with_page or in a block; references of every kind"
  },
  {
   "property": "C59",
   "status": "proved",
   "theorems": [
    "C59",
    "C59_accepted"
   ],
   "note": "for programs whose labels are placed once, with registers 0..3 and variables within the frame, up to 2^28 variables; needs 15 bytes of page per statement to be assembled for sure"
  },
  {
   "property": "C60",
   "status": "proved",
   "theorems": [
    "C60"
   ],
   "note": "the functions outside are any function from states to states that keeps the convention (abi); the stack is aligned when the program is entered (rsp mod 16 = 8); the result counts as lost when a function outside is called"
  },
  {
   "property": "C61",
   "status": "proved",
   "theorems": [
    "C61",
    "C61_calls",
    "C61_looks",
    "C61_outside",
    "C61_runs",
    "C61_stray_refuted"
   ],
   "note": "the allocator is taken to return allocations that do not overlap; C61_stray_refuted shows that the condition on raw patches is needed"
  },
  {
   "property": "C62",
   "status": "proved",
   "theorems": [
    "C62",
    "C62_stays",
    "C62_reached"
   ],
   "note": "blocks with prefixed instructions: C55, C57; C62_stays and C62_reached hold of them too"
  },
  {
   "property": "C63",
   "status": "proved",
   "theorems": [
    "C63",
    "C63_stays",
    "C63_new",
    "C63_leak_refuted"
   ],
   "note": "what the allocator, mprotect and other code do is any sequence of events that keeps their promises (fair); C63_leak_refuted: a call of new that panics does not give its memory back, so the stronger claim that it leaves the process as it was is false"
  },
  {
   "property": "C64",
   "status": "proved",
   "theorems": [
    "C64"
   ],
   "note": "patches of direct jumps and calls at a label in front of them (retargeted); labels bound once (bound_once)"
  },
  {
   "property": "C65",
   "status": "proved",
   "theorems": [
    "C65",
    "C65_on",
    "C65_tight"
   ],
   "note": "calls of raw save_reloc, patches and writes through pointers are not part of a session; constants are charged their worst alignment, so the bound is sufficient, not exact"
  },
  {
   "property": "C66",
   "status": "proved",
   "theorems": [
    "C66",
    "C66_others",
    "C66_labels",
    "C66_own",
    "C66_asm",
    "C66_flow"
   ],
   "note": ""
  },
  {
   "property": "C67",
   "status": "proved",
   "theorems": [
    "C67",
    "C67_length",
    "C67_block",
    "C67_refuted",
    "C67_cvttsd2siq_refuted"
   ],
   "note": "memory operands with a label have the base rip, as they should (gas has no other such form to compare with); the two refutations are the exceptions the property names: the same claim without them is false"
  },
  {
   "property": "C68",
   "status": "partial",
   "theorems": [
    "C68_partial",
    "C68_ring_partial",
    "C68_reading",
    "C68_refuted",
    "C68_compile_refuted",
    "C68_call_refuted"
   ],
   "note": "the general claim is false for displacements and calls; the partial theorems have the conditions under which the expression keeps its value, C68_reading says what the expansion means in every case"
  },
  {
   "property": "C69",
   "status": "proved",
   "theorems": [
    "C69",
    "C69_cpu",
    "C69_own"
   ],
   "note": ""
  },
  {
   "property": "C70",
   "status": "proved",
   "theorems": [
    "C70",
    "C70_two",
    "C70_then"
   ],
   "note": ""
  },
  {
   "property": "C71",
   "status": "proved",
   "theorems": [
    "C71",
    "C71_plain"
   ],
   "note": ""
  },
  {
   "property": "C72",
   "status": "proved",
   "theorems": [
    "C72"
   ],
   "note": ""
  },
  {
   "property": "C73",
   "status": "proved",
   "theorems": [
    "C73"
   ],
   "note": ""
  },
  {
   "property": "C74",
   "status": "proved",
   "theorems": [
    "C74",
    "C74_linked"
   ],
   "note": ""
  },
  {
   "property": "C75",
   "status": "partial",
   "theorems": [
    "C75_rm_partial",
    "C75_rmi_partial",
    "C75_ri_partial",
    "C75_xm_partial",
    "C75_mov_partial",
    "C75_index_refuted",
    "C75_label_refuted",
    "C75_imm_refuted",
    "C75_size_refuted"
   ],
   "note": "false of memory operands with an index (which is not printed) or a label, and of immediates in parentheses or with a size; proved for all others"
  },
  {
   "property": "C76",
   "status": "proved",
   "theorems": [
    "C76",
    "C76_stmt",
    "C76_block",
    "C76_full"
   ],
   "note": ""
  },
  {
   "property": "C77",
   "status": "proved",
   "theorems": [
    "C77",
    "C77_rejected",
    "C77_accepted"
   ],
   "note": "positions beyond the page do not occur (cursor <= PAGE_SIZE holds of all reached states)"
  },
  {
   "property": "C78",
   "status": "proved",
   "theorems": [
    "C78",
    "C78_on",
    "C78_stops"
   ],
   "note": ""
  },
  {
   "property": "C79",
   "status": "proved",
   "theorems": [
    "C79",
    "C79_on",
    "C79_code",
    "C79_code_on",
    "C79_data"
   ],
   "note": ""
  }
 ]
}