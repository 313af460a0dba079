(** The functions of monoasm/tests, as text. *)
From Verif Require Import Base ModelMem ModelEnc ModelSyntax ModelMacro SpecX86 SpecAsm SpecState SpecHist SpecProg ModelParse DemoText
  SpecMachine SpecCpu MachLib MachImage Fibo.
Local Notation length := List.length.
Local Open Scope string_scope.
Local Open Scope list_scope.
Local Open Scope Z_scope.

(** let begin = jit.label();  monoasm!(&mut jit, t);  jit.finalize(); *)
Definition one (vars : list (string * Z)) (t : string) : list op := [OLabel; text vars [("begin", 0%nat)] t; OFinalize].
(** let label = jit.label();  let data = jit.data(64);  monoasm!(&mut jit, t);  jit.finalize(); *)
Definition with_data (t : string) : list op := [OLabel; OCreate (DZero 64); text [] [("label", 0%nat); ("data", 1%nat)] t; OFinalize].

(** tests/div.rs *)
Definition t_udiv := one [] "begin: movq rcx, rdx; movq rax, rdi; movq rdx, rsi; div rcx; ret;".
Definition t_idiv := one [] "begin: movq rcx, rdx; movq rax, rdi; movq rdx, rsi; idiv rcx; ret;".
(** tests/divl.rs, idivl.rs *)
Definition t_divl := one [] "begin: movq rax, (0xffff_ffff_ffff_ffffu64); movq rdx, rax; movl rax, rdi; cdq; divl rsi; ret;".
Definition t_idivl := one [] "begin: xorl rdx, rdx; xorl rax, rax; movq rax, rdi; cdq; idivl rsi; ret;".
Definition t_idivl_rem := one [] "begin: xorl rdx, rdx; xorl rax, rax; movq rax, rdi; cdq; idivl rsi; movl rax, rdx; ret;".
(** tests/cdq.rs *)
Definition t_cdq := one [] "begin: movq rax, rdi; cdq; movl rax, rdx; ret;".
(** tests/counts.rs *)
Definition count_q (op : string) := with_data
  ("label: lea rsi, [rip + data]; movq rcx, 8; movq [rsi + rcx * 2 + 4], rdi; " ++ op ++ " rax, [rsi + rcx * 2 + 4]; ret;")%string.
Definition t_popcntq := count_q "popcntq".
Definition t_lzcntq := count_q "lzcntq".
Definition t_tzcntq := count_q "tzcntq".
Definition t_popcntl := one [] "begin: movq rax, rdi; popcntl rax, rax; ret;".
Definition t_lzcntl := one [] "begin: movq rax, rdi; lzcntl rax, rax; ret;".
Definition t_tzcntl := one [] "begin: movq rax, rdi; tzcntl rax, rax; ret;".
(** tests/shift_dword.rs *)
Definition shift_l (op count : string) := one [] ("begin: movq rax, rdi; movb cl, (" ++ count ++ "); " ++ op ++ " rax, cl; ret;")%string.
Definition t_shll := shift_l "shll" "0x1F".
Definition t_shrl := shift_l "shrl" "0x01".
Definition t_sall := shift_l "sall" "0x1F".
Definition t_sarl := shift_l "sarl" "0x1F".
Definition t_roll := shift_l "roll" "0x04".
Definition t_rorl := shift_l "rorl" "0x04".
(** tests/andpd.rs, xorpd.rs; [foo]: the address of a function *)
Definition t_andpd := one [("mask", 0x7fffffffffffffff)] "begin: movq rax, (mask); movq xmm1, rax; andpd xmm0, xmm1; ret;".
Definition t_xorpd (foo : Z) := one [("mask", 0x8000000000000000); ("foo", foo)] "begin: movq rax, (mask); movq xmm1, rax; xorpd xmm0, xmm1; ret; movq rax, (foo);".
(** tests/cvttsd2si.rs, roundpd.rs, minmaxsd.rs *)
Definition t_cvttsd2si := one [] "begin: cvttsd2siq rax, xmm0; ret;".
Definition t_roundpd := one [] "begin: roundpd xmm0, xmm0, (0x02); ret;".
Definition t_minmaxsd := [OLabel; OLabel; OCreate (DZero 64); text [] [("label0", 0%nat); ("label1", 1%nat); ("data", 2%nat)]
  "label0: lea rsi, [rip + data]; movq rcx, 8; movq [rsi + rcx * 2 + 4], xmm1; minsd xmm0, [rsi + rcx * 2 + 4]; ret;
   label1: lea rsi, [rip + data]; movq rcx, 8; movq [rsi + rcx * 2 + 4], xmm1; maxsd xmm0, [rsi + rcx * 2 + 4]; ret;"; OFinalize].
