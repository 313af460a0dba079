(** Properties C44, C45: assembled programs on the x86-64 processor of SpecMachine.v.
    [cpu n pc st]: n instructions fetched from the memory of the machine itself, the first
    at [pc].  [linked ops s1 l]: the address of label [l] at the first finalize of [ops]
    after which it is bound. *)
From Verif Require Import Base ModelMem ModelEnc ModelSyntax ModelMacro SpecX86 SpecAsm SpecState SpecHist EncRefute MemDemo
  SpecProg ProgDemo SpecMachine SpecCpu MachRun MachLib Fibo FiboRun FiboEnd MachDemo.
Open Scope list_scope. Open Scope Z_scope.

(** ** C44.  The block is the written program: the processor does, step for step, what the
    statements say, each label being the address of the statement after it, as long as
    the program does not overwrite its own code. *)
Theorem C44 : forall ev lenv r body s o s1 ops s4 target,
  reached s -> Forall (plain ev r) body -> step (OAsm ev lenv r body) s = Ok o s1 -> forallb api ops = true -> run ops s1 = Some s4 ->
  (forall x, In x (body_labels body) -> linked ops s1 (lenv x) = Some (target x)) -> own_labels lenv body s ops ->
  exists marks, listing (denote (eval ev r)) target s4 (cur s) marks body /\ hd_error marks = Some (cursor s) /\ last marks 0 = cursor s1 /\
    (forall j x a, nth_error body j = Some (ILabel x) -> linked ops s1 (lenv x) = Some a -> a = addr s4 (cur s) (nth j marks 0)) /\
    forall n k st, (k <= List.length body)%nat ->
      keeps_code (mem s4) (addr s4 (cur s) (cursor s)) (addr s4 (cur s) (cursor s1)) (denote (eval ev r)) target (fun k => addr s4 (cur s) (nth k marks 0)) body n k st ->
      same_cpu (denote (eval ev r)) target (fun k => addr s4 (cur s) (nth k marks 0)) body n k st.
Proof. exact program_cpu. Qed.
Print Assumptions C44.
Example C44_case : reached sG /\ Forall (plain evD rD) prog /\ step opG sG = Ok None sG1 /\ run hG sG1 = Some sG4 /\ own_labels lenvD prog sG hG /\
  (forall x, In x (body_labels prog) -> linked hG sG1 (lenvD x) = Some (targetG x)) /\
  (forall m, holds (mem sG4) (65536 + 1) (65536 + 47) (stG m) ->
    keeps_code (mem sG4) (65536 + 1) (65536 + 47) (denote (eval evD rD)) targetG atG prog 17 0 (stG m)) /\
  exists st, cpu 17 (65536 + 1) (stG (mem sG4)) = Some (65536 + 46, st) /\ regs st 0 = 12 /\ xmms st 0 = 0x3ff0000000000000.
Proof. exact case44. Qed.

(** ** C45.  The program of the README: [fibo_jit] is its calls, with the macro bodies as
    source text; the function at label fibo, called with n in rdi and 64 bytes of stack for
    each of the n + 1 nested calls, returns to its caller with the n-th Fibonacci number. *)
Theorem C45 : forall b m, 0 < b -> b + 167 <= 2 ^ 64 -> exists s, run fibo_jit (jit_new b m) = Some s /\ label_addr s 0%nat = Some b /\
  forall st n sp, wf st -> holds (mem s) b (b + 167) st -> regs st 7 = n -> regs st 4 = sp -> 64 * (n + 1) <= sp -> sp + 8 <= 2 ^ 64 ->
    b + 167 <= sp - 64 * (n + 1) \/ sp + 8 <= b ->
    exists k st', cpu k b st = Some (quad (mm st) sp, st') /\ regs st' 0 = fib (Z.to_nat n) mod 2 ^ 64 /\ regs st' 4 = u64 (sp + 8) /\
      (forall i, saved i -> regs st' i = regs st i) /\ xmms st' = xmms st /\ forall x, ~ (sp - 64 * (n + 1) <= x < sp) -> mm st' x = mm st x.
Proof. exact fibo_call. Qed.
Print Assumptions C45.
(** fibo(6) called from address 77. *)
Example C45_case : (exists s, run fibo_jit (jit_new 4096 (fun _ => 0)) = Some s /\ wf stF /\ holds (mem s) 4096 (4096 + 167) stF) /\
  shown (cpu 729 4096 stF) = Some (77, [8; 3; 2 ^ 20 + 8; 5; 12; 13; 14; 15]).
Proof. exact case45. Qed.
