(** Property C46: the functions of the test suite, given as the text of their macro calls
    (TestProgs.v), compute for every argument what the tests check for one or a few.
    [computes ops len d0 d1 pre post] (SpecCpu.v): assembled at any address, called in any machine
    state with [pre], the function returns to its caller with [post], restoring what a called
    function has to; it writes no memory except at the offsets [d0, d1) of the allocation.
    Arguments: rdi, rsi, rdx or xmm0, xmm1; results: rax, rdx or xmm0. *)
From Verif Require Import Base ModelMem ModelSyntax SpecX86 SpecState SpecHist SpecFP SpecMachine SpecCpu TestProgs TestRun TestRun2 TestRun3 TestDemo.
Open Scope list_scope. Open Scope Z_scope.

(** ** div.rs: rsi:rdi divided by rdx *)
Theorem C46_div : computes t_udiv 13 0 0 (fun st => regs st 6 < regs st 2)
  (fun st st' => regs st' 0 = (regs st 6 * 2 ^ 64 + regs st 7) / regs st 2 /\ regs st' 2 = (regs st 6 * 2 ^ 64 + regs st 7) mod regs st 2).
Proof. exact f_udiv. Qed.
Print Assumptions C46_div.
Example C46_div_case : called 5 4096 (stT (args 63 0 10) no_xmm i_udiv) = Some (back, 6, 3, 0) /\ called 5 4096 (stT (args 0 1 16) no_xmm i_udiv) = Some (back, 2 ^ 60, 0, 0).
Proof. exact case_udiv. Qed.

Theorem C46_idiv : computes t_idiv 13 0 0 (fun st => i64 (regs st 2) <> 0 /\ - 2 ^ 63 <= Z.quot (dividend st) (i64 (regs st 2)) < 2 ^ 63)
  (fun st st' => i64 (regs st' 0) = Z.quot (dividend st) (i64 (regs st 2)) /\ i64 (regs st' 2) = Z.rem (dividend st) (i64 (regs st 2))).
Proof. exact f_idiv. Qed.
Print Assumptions C46_idiv.
Example C46_idiv_case : called 5 4096 (stT (args (2 ^ 64 - 63) (2 ^ 64 - 1) 10) no_xmm i_idiv) = Some (back, 2 ^ 64 - 6, 2 ^ 64 - 3, 0) /\
  dividend (stT (args (2 ^ 64 - 63) (2 ^ 64 - 1) 10) no_xmm i_idiv) = -63.
Proof. exact case_idiv. Qed.

(** ** divl.rs: edi divided by esi.  Missing: dividends from 2^31 on, for which the function faults
    (cdq extends their sign). *)
Theorem C46_divl_partial : computes t_divl 19 0 0 (fun st => u32 (regs st 7) < 2 ^ 31 /\ u32 (regs st 6) <> 0)
  (fun st st' => regs st' 0 = u32 (regs st 7) / u32 (regs st 6) /\ regs st' 2 = u32 (regs st 7) mod u32 (regs st 6)).
Proof. exact f_divl. Qed.
Print Assumptions C46_divl_partial.
Theorem C46_divl_refuted : ~ computes t_divl 19 0 0 (fun st => u32 (regs st 6) <> 0)
  (fun st st' => regs st' 0 = u32 (regs st 7) / u32 (regs st 6) /\ regs st' 2 = u32 (regs st 7) mod u32 (regs st 6)).
Proof. exact divl_wrong. Qed.
Print Assumptions C46_divl_refuted.
Example C46_divl_case : called 6 4096 (stT (args 7777777 111112 0) no_xmm i_divl) = Some (back, 69, 111049, 0) /\
  called 6 4096 (stT (args (2 ^ 31) 111112 0) no_xmm i_divl) = None.
Proof. exact case_divl. Qed.

(** ** idivl.rs *)
Theorem C46_idivl : computes t_idivl 11 0 0 div32_ok
  (fun st st' => i32 (regs st' 0) = Z.quot (i32 (regs st 7)) (i32 (regs st 6)) /\ i32 (regs st' 2) = Z.rem (i32 (regs st 7)) (i32 (regs st 6))).
Proof. exact f_idivl. Qed.
Print Assumptions C46_idivl.
Theorem C46_idivl_rem : computes t_idivl_rem 13 0 0 div32_ok (fun st st' => i32 (regs st' 0) = Z.rem (i32 (regs st 7)) (i32 (regs st 6))).
Proof. exact f_idivl_rem. Qed.
Print Assumptions C46_idivl_rem.
Example C46_idivl_case : called 6 4096 (stT (args (2 ^ 32 - 7777777) 111112 0) no_xmm i_idivl) = Some (back, 2 ^ 32 - 69, 2 ^ 32 - 111049, 0) /\
  called 7 4096 (stT (args (2 ^ 32 - 7777777) 111112 0) no_xmm i_idivl_rem) = Some (back, 2 ^ 32 - 111049, 2 ^ 32 - 111049, 0).
Proof. exact case_idivl. Qed.

(** ** cdq.rs *)
Theorem C46_cdq : computes t_cdq 7 0 0 (fun _ => True) (fun st st' => regs st' 0 = if Z.testbit (regs st 7) 31 then 0xffffffff else 0).
Proof. exact f_cdq. Qed.
Print Assumptions C46_cdq.
Example C46_cdq_case : called 4 4096 (stT (args (2 ^ 32 - 1) 0 0) no_xmm i_cdq) = Some (back, 2 ^ 32 - 1, 2 ^ 32 - 1, 0) /\ called 4 4096 (stT (args 127 0 5) no_xmm i_cdq) = Some (back, 0, 0, 0).
Proof. exact case_cdq. Qed.

(** ** counts.rs: of a register, and of a value stored in the data page *)
Theorem C46_popcntl : computes t_popcntl 8 0 0 (fun _ => True) (fun st st' => is_ones 32 (u32 (regs st 7)) (regs st' 0)).
Proof. exact f_popcntl. Qed.
Print Assumptions C46_popcntl.
Theorem C46_lzcntl : computes t_lzcntl 8 0 0 (fun _ => True) (fun st st' => is_lz 32 (u32 (regs st 7)) (regs st' 0)).
Proof. exact f_lzcntl. Qed.
Print Assumptions C46_lzcntl.
Theorem C46_tzcntl : computes t_tzcntl 8 0 0 (fun _ => True) (fun st st' => is_tz 32 (u32 (regs st 7)) (regs st' 0)).
Proof. exact f_tzcntl. Qed.
Print Assumptions C46_tzcntl.
Theorem C46_popcntq : computes t_popcntq 30 (2 * PAGE_SIZE + 20) (2 * PAGE_SIZE + 28) (fun _ => True) (fun st st' => is_ones 64 (regs st 7) (regs st' 0)).
Proof. exact f_popcntq. Qed.
Print Assumptions C46_popcntq.
Theorem C46_lzcntq : computes t_lzcntq 30 (2 * PAGE_SIZE + 20) (2 * PAGE_SIZE + 28) (fun _ => True) (fun st st' => is_lz 64 (regs st 7) (regs st' 0)).
Proof. exact f_lzcntq. Qed.
Print Assumptions C46_lzcntq.
Theorem C46_tzcntq : computes t_tzcntq 30 (2 * PAGE_SIZE + 20) (2 * PAGE_SIZE + 28) (fun _ => True) (fun st st' => is_tz 64 (regs st 7) (regs st' 0)).
Proof. exact f_tzcntq. Qed.
Print Assumptions C46_tzcntq.
Example C46_counts_case : called 3 4096 (stT (args 0xffff000000f 0 2) no_xmm i_popcntl) = Some (back, 8, 2, 0) /\ called 3 4096 (stT (args 0x4001 0 2) no_xmm i_lzcntl) = Some (back, 17, 2, 0) /\
  called 3 4096 (stT (args 0x50 0 2) no_xmm i_tzcntl) = Some (back, 4, 2, 0) /\ called 5 4096 (stT (args (2 ^ 64 - 1) 0 2) no_xmm i_popcntq) = Some (back, 64, 2, 0) /\
  called 5 4096 (stT (args 0x4001 0 2) no_xmm i_lzcntq) = Some (back, 49, 2, 0) /\ called 5 4096 (stT (args 0 0 2) no_xmm i_tzcntq) = Some (back, 64, 2, 0).
Proof. exact case_counts. Qed.

(** ** shift_dword.rs: by the constants of the tests *)
Theorem C46_shll : computes t_shll 8 0 0 (fun _ => True) (fun st st' => regs st' 0 = u32 (regs st 7 * 2 ^ 31)).
Proof. exact f_shll. Qed.
Print Assumptions C46_shll.
Theorem C46_sall : computes t_sall 8 0 0 (fun _ => True) (fun st st' => regs st' 0 = u32 (regs st 7 * 2 ^ 31)).
Proof. exact f_sall. Qed.
Print Assumptions C46_sall.
Theorem C46_shrl : computes t_shrl 8 0 0 (fun _ => True) (fun st st' => regs st' 0 = u32 (regs st 7) / 2).
Proof. exact f_shrl. Qed.
Print Assumptions C46_shrl.
Theorem C46_sarl : computes t_sarl 8 0 0 (fun _ => True) (fun st st' => regs st' 0 = u32 (i32 (regs st 7) / 2 ^ 31)).
Proof. exact f_sarl. Qed.
Print Assumptions C46_sarl.
Theorem C46_roll : computes t_roll 8 0 0 (fun _ => True) (fun st st' => regs st' 0 = u32 (regs st 7) mod 2 ^ 28 * 16 + u32 (regs st 7) / 2 ^ 28).
Proof. exact f_roll. Qed.
Print Assumptions C46_roll.
Theorem C46_rorl : computes t_rorl 8 0 0 (fun _ => True) (fun st st' => regs st' 0 = u32 (regs st 7) mod 16 * 2 ^ 28 + u32 (regs st 7) / 16).
Proof. exact f_rorl. Qed.
Print Assumptions C46_rorl.
Example C46_shifts_case : called 4 4096 (stT (args 3 0 2) no_xmm i_shll) = Some (back, 2 ^ 31, 2, 0) /\ called 4 4096 (stT (args 3 0 2) no_xmm i_sall) = Some (back, 2 ^ 31, 2, 0) /\
  called 4 4096 (stT (args (2 ^ 32 - 1) 0 2) no_xmm i_shrl) = Some (back, 2 ^ 31 - 1, 2, 0) /\ called 4 4096 (stT (args (2 ^ 31) 0 2) no_xmm i_sarl) = Some (back, 2 ^ 32 - 1, 2, 0) /\
  called 4 4096 (stT (args 0xa1b2c3d4 0 2) no_xmm i_roll) = Some (back, 0x1b2c3d4a, 2, 0) /\ called 4 4096 (stT (args 0xa1b2c3d4 0 2) no_xmm i_rorl) = Some (back, 0x4a1b2c3d, 2, 0).
Proof. exact case_shifts. Qed.

(** ** andpd.rs, xorpd.rs: the sign bit of the double in xmm0 is cleared, inverted *)
Theorem C46_andpd : computes t_andpd 20 0 0 (fun _ => True) (fun st st' => xmms st' 0 = xmms st 0 mod 2 ^ 63).
Proof. exact f_andpd. Qed.
Print Assumptions C46_andpd.
Theorem C46_xorpd : forall foo, computes (t_xorpd foo) 20 0 0 (fun _ => True)
  (fun st st' => xmms st' 0 = if Z.testbit (xmms st 0) 63 then xmms st 0 - 2 ^ 63 else xmms st 0 + 2 ^ 63).
Proof. exact f_xorpd. Qed.
Print Assumptions C46_xorpd.
Example C46_xmm_case : called 4 4096 (stT (args 0 0 2) (fargs 0xc010cccccccccccd 0) i_andpd) = Some (back, 2 ^ 63 - 1, 2, 0x4010cccccccccccd) /\
  called 4 4096 (stT (args 0 0 2) (fargs 0xc010cccccccccccd 0) i_xorpd) = Some (back, 2 ^ 63, 2, 0x4010cccccccccccd).
Proof. exact case_xmm. Qed.

(** ** cvttsd2si.rs: a function f64 -> i64.  Missing: values outside 0 .. 2^31, since the
    instruction assembled is the 32-bit one. *)
Theorem C46_cvttsd2si_partial : computes t_cvttsd2si 5 0 0 (fun st => 0 <= f64_to_int 64 (lo64 (xmms st 0)) <= 2 ^ 31)
  (fun st st' => regs st' 0 = u64 (f64_to_int 64 (lo64 (xmms st 0)))).
Proof. exact f_cvttsd2si_right. Qed.
Print Assumptions C46_cvttsd2si_partial.
(** What it returns for every argument. *)
Theorem C46_cvttsd2si : computes t_cvttsd2si 5 0 0 (fun _ => True) (fun st st' => regs st' 0 = u32 (f64_to_int 32 (lo64 (xmms st 0)))).
Proof. exact f_cvttsd2si. Qed.
Print Assumptions C46_cvttsd2si.
Theorem C46_cvttsd2si_refuted : ~ computes t_cvttsd2si 5 0 0 (fun _ => True) (fun st st' => regs st' 0 = u64 (f64_to_int 64 (lo64 (xmms st 0)))).
Proof. exact cvttsd2si_wrong. Qed.
Print Assumptions C46_cvttsd2si_refuted.
Example C46_cvttsd2si_case : called 2 4096 (stT (args 0 0 2) (fargs 0x400921fb54442d18 0) i_cvttsd2si) = Some (back, 3, 2, 0x400921fb54442d18) /\ f64_to_int 64 0x400921fb54442d18 = 3 /\
  called 2 4096 (stT (args 0 0 2) (fargs 0xc00921fb54442d18 0) i_cvttsd2si) = Some (back, 2 ^ 32 - 3, 2, 0xc00921fb54442d18).
Proof. exact case_cvttsd2si. Qed.

(** ** roundpd.rs (mode 2: up), minmaxsd.rs *)
Theorem C46_roundpd : computes t_roundpd 7 0 0 (fun _ => True)
  (fun st st' => xmms st' 0 = pair64 (f64_round 2 (hi64 (xmms st 0))) (f64_round 2 (lo64 (xmms st 0)))).
Proof. exact f_roundpd. Qed.
Print Assumptions C46_roundpd.
Example C46_roundpd_case : called 2 4096 (stT (args 0 0 2) (fargs 0x400921fb54442d18 0) i_roundpd) = Some (back, 0, 2, 0x4010000000000000).
Proof. exact case_roundpd. Qed.
Theorem C46_minsd : computes_at t_minmaxsd 0%nat 0 60 (2 * PAGE_SIZE + 20) (2 * PAGE_SIZE + 28) (fun _ => True)
  (fun st st' => lo64 (xmms st' 0) = f64_min (lo64 (xmms st 0)) (lo64 (xmms st 1))).
Proof. exact f_minsd. Qed.
Print Assumptions C46_minsd.
Theorem C46_maxsd : computes_at t_minmaxsd 1%nat 30 60 (2 * PAGE_SIZE + 20) (2 * PAGE_SIZE + 28) (fun _ => True)
  (fun st st' => lo64 (xmms st' 0) = f64_max (lo64 (xmms st 0)) (lo64 (xmms st 1))).
Proof. exact f_maxsd. Qed.
Print Assumptions C46_maxsd.
Example C46_minmax_case : called 5 4096 (stT (args 0 0 2) (fargs 0x3f947ae147ae147b 0xbfb999999999999a) i_minmaxsd) = Some (back, 0, 2, 0xbfb999999999999a) /\
  called 5 (4096 + 30) (stT (args 0 0 2) (fargs 0x3f947ae147ae147b 0xbfb999999999999a) i_minmaxsd) = Some (back, 0, 2, 0x3f947ae147ae147b).
Proof. exact case_minmax. Qed.
