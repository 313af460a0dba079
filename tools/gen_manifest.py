import json
C=[]
def c(prop,status,theorems,note=""):
    C.append({"property":prop,"status":status,"theorems":theorems.split(),"note":note})
c("C01","partial","C01_partial C01_refuted","False when the index register is rsp (the index is dropped). Proved for all instructions whose registers are 0..15, whose memory operand is encodable, and whose address expressions do not mention a variable named imm.")
c("C02","partial","C02_partial C02_cvttsd2siq C02_refuted","False for cvttsd2siq (no REX.W: always a 32-bit conversion), proved for all others; what cvttsd2siq encodes instead is proved.")
c("C03","partial","C03_partial C03_refuted","False for index rsp; proved for every encodable memory operand.")
c("C04","proved","C04_exact C04_rejected C04_accepted","For operands that exist (ordinary).")
c("C05","partial","C05_partial C05_refuted","Exact for every displacement that fits 32 bits; larger displacement expressions are truncated, not rejected.")
c("C06","proved","C06","")
c("C07","partial","C07_partial C07_refuted","False for roundpd xmm,[rip+label],imm; proved for everything else.")
c("C09","partial","C09_partial C09_refuted","Only numbers congruent to 16 modulo 256 are certain to be rejected; others alias.")
c("C10","proved","C10 C10_first_finalize","")
c("C11","proved","C11_no_failure C11_pending C11_resolved_once","finalize fails exactly when the constants do not fit or an abs_address names a label that does not exist.")
c("C12","proved","C12 C12_other_panics","For any calls whatsoever, page overflows included.")
c("C13","proved","C13 C13_finalize","")
c("C14","proved","C14_cursor C14_memory C14_page C14_finalize C14_raw","")
c("C15","proved","C15 C15_select C15_bytes C15_get_page C15_refused","")
c("C16","proved","C16 C16_disjoint C16_stays C16_once","")
c("C17","partial","C17_partial C17_code_pages C17_untouched C17_page2_refuted","All but one clause: Page(2) can be constructed by the caller, and jit[Page(2)].emitb(..) writes to the data page; no other emitting call does.")
c("C18","proved","C18 C18_aligned","")
c("C19","proved","C19_fresh C19_bind C19_stable C16_stays C19_getters","")
c("C20","proved","C20 C20_moves_nothing","")
c("C21","proved","C21 C21_before C21_block","")
c("C22","proved","C22_as_slice C22_dump_first C22_dump","")
c("C23","proved","C23 C23_survives C23_pending_lost","")
c("C24","partial","C24_partial C24_page1 C24_refuted C24_data_refuted","True with page 0 selected. With page 1 selected include tests page 1 and the data page.")
c("C26","partial","C26_partial C26_refuted C26_index_refuted","False for word-size arithmetic with an out-of-range immediate and for index register number 16.")
c("C32","partial","C32 C32_emit C32_dq_int C32_dq_float_partial C32_refuted","proved for every call and every dq that compiles; false of dq with a negative float or one too large for a double, which does not compile (C32_refuted): the expansion is -1.5f64.to_ne_bytes(), the negation of an array")
c("C33","proved","C33 C33_forms","")
c("C35","proved","C35","")
c("C36","proved","C36 C36_current","The allocation lies in the lower half of the address space, as every user mapping does.")
c("C37","proved","C37","")
c("C08","partial","C08_partial C08_refuted","False for blocks containing cvttsd2siq or roundpd with a label operand. Proved for all other blocks with encodable operands, any history before and after, any split over finalizes.")
c("C25","partial","C25_partial C25_refuted C25_same_statement_refuted","False for expressions mentioning a caller variable named imm, which the expansion shadows; proved for all other expressions.")
c("C31","partial","C31_position C31_position_block C31_split_partial C31_split_refuted","Position independence proved in full. Splitting holds unless a later expression mentions a variable named imm.")
c("C34","partial","C34_partial C34_refuted","As C08: false with cvttsd2siq, proved for all other programs, every instruction semantics, any number of steps.")
c("C27","proved","C27 C27_machine C27_set C27_cmov C27_jump","The accepted suffixes are those of the manual except nb, and except l and g in jumps; eq, lt, gt are additional names from the README.")
c("C28","proved","C28 C28_unknown","")
c("C29","proved","C29 C29_block C29_show C29_show_block","")
c("C30","partial","C30_partial C30_index_partial C30_refuted C30_register_refuted C30_min_refuted","False for a name after a minus sign and, without overflow checks in the macro, for the literal -2147483648; proved for every other literal and every expression.")
c("C38","proved","C38 C38_block","")
c("C39","proved","C39","")
c("C40","proved","C40 C40_emit","")
c("C42","partial","C42_partial C42_xchg C42_refuted","False for xchgl, xchgw, xchgb, which the README lists: the expansion panics for all operands (C42_refuted). Proved for every other listed mnemonic.")
c("C43","proved","C43 C43_impossible","")
c("C41","proved","C41_code C41_data C41_outside C41_emitted C41_datum","")
c("C44","proved","C44","Syscall and int3 have no meaning in the machine and stop it.")
c("C45","proved","C45","")
c("C46","partial","C46_div C46_idiv C46_divl_partial C46_divl_refuted C46_idivl C46_idivl_rem C46_cdq C46_popcntl C46_lzcntl C46_tzcntl C46_popcntq C46_lzcntq C46_tzcntq C46_shll C46_sall C46_shrl C46_sarl C46_roll C46_rorl C46_andpd C46_xorpd C46_cvttsd2si_partial C46_cvttsd2si C46_cvttsd2si_refuted C46_roundpd C46_minsd C46_maxsd","Proved for every function of the test suite and every argument, except: divl.rs faults for dividends from 2^31 on (cdq before an unsigned division), cvttsd2si.rs is right only for values from 0 to 2^31 (32-bit conversion); both refuted.")
c("C47","proved","C47 C47_accepted C47_ordinary C47_scales","")
c("C48","proved","C48 C48_runs C48_listing C48_accepted C48_plain","the third operand of roundpd is a u8 and scale factors are 1, 2, 4, 8, as the macro guarantees (C47_scales)")
c("C49","proved","C49 C49_found","the memory lies below 2^64 - 3 pages; the label of the constant is not bound again by the caller")
c("C50","proved","C50 C50_emitted C50_write C50_back C50_page C50_blocks C50_before C50_add C50_order","")
c("C51","partial","C51_partial C51_finalize C51_fresh_partial C51_refuted C51_refuted_constant","False for a finalize that panics: the constants it took are lost, the next finalize returns without them (C51_refuted_constant); after an overflowing jump it loses every label and label() hands them out again (C51_refuted). Proved for every other call, and what a finalize keeps in every case (C51_finalize).")
c("C52","partial","C52_partial C52_two C52_blind C52_means C52_cpu C52_runs C52_accepted C52_refuted","False in general: imm has a narrower type in the operands beside an immediate, and jit, op1, op2 and rm_op are taken too (C52_refuted; C66 is exact). Proved where the expressions mention none of those and use only the number imm (C66_asm says so). typed: the third operand of roundpd is a u8 and scale factors are 1, 2, 4, 8")
c("C53","partial","C53_partial C53_once_partial C53_all C53_pure C53_frozen C53_refuted C53_code_refuted C53_panic_refuted","false of movq, testq and testb of a computed register R(e) and an immediate, and of xchg of two registers one of which is computed: they evaluate e twice or more (C53_refuted, C53_code_refuted), and of blocks that panic, whose message evaluates an operand (C53_panic_refuted). Proved for all other statements (the trace: of blocks that do not panic)")
c("C54","proved","C54 C54_cpu","")
c("C55","partial","C55_partial C55_all C55_reached C55_stays C55_world C55_evaluated C55_refuted C55_next_refuted","false of instructions that begin with a prefix (16-bit operations, SSE, bit counts): the prefix is emitted before the operands are evaluated and stays behind (C55_refuted), which changes the instruction assembled next (C55_next_refuted). Proved for all other statements; C55_all says what is left in every case")
c("C56","proved","C56 C56_cpu C56_grow C56_patch C56_run C56_jcc_refuted","for direct jumps and calls, as the property says; C56_jcc_refuted shows what the same calls do to a conditional jump")
c("C57","partial","C57_partial C57_write_partial C57_reached C57_refuted","false of instructions that begin with a prefix: the prefix is emitted before the operands are evaluated, so that they see the assembler one byte further (C57_refuted). Proved for all other statements (for changing expressions also without the four forms of C53)")
c("C58","proved","C58 C58_kept C58_accepted C58_moves","for labels of label(), bound by bind_label, bind_label_with_page or in a block; references of every kind")
c("C59","proved","C59 C59_accepted","for programs whose labels are placed once, with registers 0..3 and variables within the frame, up to 2^28 variables; needs 15 bytes of page per statement to be assembled for sure")
c("C60","proved","C60","the functions outside are any function from states to states that keeps the convention (abi); the stack is aligned when the program is entered (rsp mod 16 = 8); the result counts as lost when a function outside is called")
c("C61","proved","C61 C61_calls C61_looks C61_outside C61_runs C61_stray_refuted","the allocator is taken to return allocations that do not overlap; C61_stray_refuted shows that the condition on raw patches is needed")
c("C62","proved","C62 C62_stays C62_reached","blocks with prefixed instructions: C55, C57; C62_stays and C62_reached hold of them too")
c("C63","proved","C63 C63_stays C63_new C63_leak_refuted","what the allocator, mprotect and other code do is any sequence of events that keeps their promises (fair); C63_leak_refuted: a call of new that panics does not give its memory back, so the stronger claim that it leaves the process as it was is false")
c("C64","proved","C64","patches of direct jumps and calls at a label in front of them (retargeted); labels bound once (bound_once)")
c("C65","proved","C65 C65_on C65_tight","calls of raw save_reloc, patches and writes through pointers are not part of a session; constants are charged their worst alignment, so the bound is sufficient, not exact")
c("C66","proved","C66 C66_others C66_labels C66_own C66_asm C66_flow","")
c("C67","proved","C67 C67_length C67_block C67_refuted C67_cvttsd2siq_refuted","memory operands with a label have the base rip, as they should (gas has no other such form to compare with); the two refutations are the exceptions the property names: the same claim without them is false")
c("C68","partial","C68_partial C68_ring_partial C68_reading C68_refuted C68_compile_refuted C68_call_refuted","the general claim is false for displacements and calls; the partial theorems have the conditions under which the expression keeps its value, C68_reading says what the expansion means in every case")
c("C69","proved","C69 C69_cpu C69_own","")
c("C70","proved","C70 C70_two C70_then","")
c("C71","proved","C71 C71_plain","")
c("C72","proved","C72","")
c("C73","proved","C73","")
c("C74","proved","C74 C74_linked","")
c("C75","partial","C75_rm_partial C75_rmi_partial C75_ri_partial C75_xm_partial C75_mov_partial C75_index_refuted C75_label_refuted C75_imm_refuted C75_size_refuted","false of memory operands with an index (which is not printed) or a label, and of immediates in parentheses or with a size; proved for all others")
c("C76","proved","C76 C76_stmt C76_block C76_full","")
c("C77","proved","C77 C77_rejected C77_accepted","positions beyond the page do not occur (cursor <= PAGE_SIZE holds of all reached states)")
c("C78","proved","C78 C78_on C78_stops","")
c("C79","proved","C79 C79_on C79_code C79_code_on C79_data","")
C.sort(key=lambda x:x["property"])
json.dump({"claims":C},open("/verif/MANIFEST.json","w"),indent=1)
