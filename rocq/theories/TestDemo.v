(** Runs of the functions of monoasm/tests with the arguments of the tests. *)
From Verif Require Import Base ModelMem ModelSyntax SpecX86 SpecState SpecHist SpecProg SpecFP SpecMachine SpecCpu MachLib MachImage TestProgs TestRun TestRun2 TestRun3.
Local Open Scope list_scope.
Local Open Scope Z_scope.

(** rdi, rsi, rdx; xmm0, xmm1 *)
Definition args (di si dx : Z) : Z -> Z := fun i => if i =? 7 then di else if i =? 6 then si else if i =? 2 then dx else i.
Definition fargs (a b : Z) : Z -> Z := fun i => if i =? 0 then a else if i =? 1 then b else 0.
(** n instructions of the code at 4096: where the processor is, rax, rdx, xmm0 *)
Definition called (n : nat) (pc : Z) (st : mach) : option (Z * Z * Z * Z) :=
  match cpu n pc st with Some (pc', st') => Some (pc', regs st' 0, regs st' 2, xmms st' 0) | None => None end.
Definition back : Z := 0x0606060606060606.   (* the return address of stT *)
Definition no_xmm : Z -> Z := fun _ => 0.
Lemma case_udiv : called 5 4096 (stT (args 63 0 10) no_xmm i_udiv) = Some (back, 6, 3, 0) /\ called 5 4096 (stT (args 0 1 16) no_xmm i_udiv) = Some (back, 2 ^ 60, 0, 0).
Proof. split; vm_compute; reflexivity. Qed.
Lemma case_idiv : called 5 4096 (stT (args (2 ^ 64 - 63) (2 ^ 64 - 1) 10) no_xmm i_idiv) = Some (back, 2 ^ 64 - 6, 2 ^ 64 - 3, 0) /\
  dividend (stT (args (2 ^ 64 - 63) (2 ^ 64 - 1) 10) no_xmm i_idiv) = -63.
Proof. split; vm_compute; reflexivity. Qed.
Lemma case_divl : called 6 4096 (stT (args 7777777 111112 0) no_xmm i_divl) = Some (back, 69, 111049, 0) /\
  called 6 4096 (stT (args (2 ^ 31) 111112 0) no_xmm i_divl) = None.
Proof. split; vm_compute; reflexivity. Qed.
Lemma case_idivl : called 6 4096 (stT (args (2 ^ 32 - 7777777) 111112 0) no_xmm i_idivl) = Some (back, 2 ^ 32 - 69, 2 ^ 32 - 111049, 0) /\
  called 7 4096 (stT (args (2 ^ 32 - 7777777) 111112 0) no_xmm i_idivl_rem) = Some (back, 2 ^ 32 - 111049, 2 ^ 32 - 111049, 0).
Proof. split; vm_compute; reflexivity. Qed.
Lemma case_cdq : called 4 4096 (stT (args (2 ^ 32 - 1) 0 0) no_xmm i_cdq) = Some (back, 2 ^ 32 - 1, 2 ^ 32 - 1, 0) /\ called 4 4096 (stT (args 127 0 5) no_xmm i_cdq) = Some (back, 0, 0, 0).
Proof. split; vm_compute; reflexivity. Qed.
Lemma case_counts : called 3 4096 (stT (args 0xffff000000f 0 2) no_xmm i_popcntl) = Some (back, 8, 2, 0) /\ called 3 4096 (stT (args 0x4001 0 2) no_xmm i_lzcntl) = Some (back, 17, 2, 0) /\
  called 3 4096 (stT (args 0x50 0 2) no_xmm i_tzcntl) = Some (back, 4, 2, 0) /\ called 5 4096 (stT (args (2 ^ 64 - 1) 0 2) no_xmm i_popcntq) = Some (back, 64, 2, 0) /\
  called 5 4096 (stT (args 0x4001 0 2) no_xmm i_lzcntq) = Some (back, 49, 2, 0) /\ called 5 4096 (stT (args 0 0 2) no_xmm i_tzcntq) = Some (back, 64, 2, 0).
Proof. repeat split; vm_compute; reflexivity. Qed.
Lemma case_shifts : called 4 4096 (stT (args 3 0 2) no_xmm i_shll) = Some (back, 2 ^ 31, 2, 0) /\ called 4 4096 (stT (args 3 0 2) no_xmm i_sall) = Some (back, 2 ^ 31, 2, 0) /\
  called 4 4096 (stT (args (2 ^ 32 - 1) 0 2) no_xmm i_shrl) = Some (back, 2 ^ 31 - 1, 2, 0) /\ called 4 4096 (stT (args (2 ^ 31) 0 2) no_xmm i_sarl) = Some (back, 2 ^ 32 - 1, 2, 0) /\
  called 4 4096 (stT (args 0xa1b2c3d4 0 2) no_xmm i_roll) = Some (back, 0x1b2c3d4a, 2, 0) /\ called 4 4096 (stT (args 0xa1b2c3d4 0 2) no_xmm i_rorl) = Some (back, 0x4a1b2c3d, 2, 0).
Proof. repeat split; vm_compute; reflexivity. Qed.
(** -4.2 *)
Lemma case_xmm : called 4 4096 (stT (args 0 0 2) (fargs 0xc010cccccccccccd 0) i_andpd) = Some (back, 2 ^ 63 - 1, 2, 0x4010cccccccccccd) /\
  called 4 4096 (stT (args 0 0 2) (fargs 0xc010cccccccccccd 0) i_xorpd) = Some (back, 2 ^ 63, 2, 0x4010cccccccccccd).
Proof. split; vm_compute; reflexivity. Qed.
(** pi; 0.02 and -0.1 *)
Lemma case_cvttsd2si : called 2 4096 (stT (args 0 0 2) (fargs 0x400921fb54442d18 0) i_cvttsd2si) = Some (back, 3, 2, 0x400921fb54442d18) /\ f64_to_int 64 0x400921fb54442d18 = 3 /\
  called 2 4096 (stT (args 0 0 2) (fargs 0xc00921fb54442d18 0) i_cvttsd2si) = Some (back, 2 ^ 32 - 3, 2, 0xc00921fb54442d18).
Proof. repeat split; vm_compute; reflexivity. Qed.
Lemma case_roundpd : called 2 4096 (stT (args 0 0 2) (fargs 0x400921fb54442d18 0) i_roundpd) = Some (back, 0, 2, 0x4010000000000000).
Proof. vm_compute. reflexivity. Qed.
Lemma case_minmax : called 5 4096 (stT (args 0 0 2) (fargs 0x3f947ae147ae147b 0xbfb999999999999a) i_minmaxsd) = Some (back, 0, 2, 0xbfb999999999999a) /\
  called 5 (4096 + 30) (stT (args 0 0 2) (fargs 0x3f947ae147ae147b 0xbfb999999999999a) i_minmaxsd) = Some (back, 0, 2, 0x3f947ae147ae147b).
Proof. split; vm_compute; reflexivity. Qed.
