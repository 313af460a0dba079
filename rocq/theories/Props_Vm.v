(** Properties C59 and C60: the code generator of the README (README.md 209-368: struct VM, whose methods are calls of monoasm!). *)
From Verif Require Import Base ModelMem ModelEnc ModelSyntax ModelMacro SpecX86 SpecState SpecHist SpecMachine SpecCpu SpecHost ModelParse DemoText MachImage Fibo SpecVm VmCode VmEnd VmFits VmDemo.
Local Open Scope list_scope.
Local Open Scope Z_scope.

(** ** C59.  Whatever program of functions is put together from the methods of VM, when the calls return, a call of any
    of its functions with an argument [x] for which the program, read as a program of the virtual machine, returns [v],
    comes back to its caller with [v] in rax, rsp popped, the callee-saved and the xmm registers as they were and
    memory untouched outside the [room] bytes of stack the program needs. *)
Theorem C59 : forall labels fs b m s4, vm_ok labels fs -> calls (vm_jit labels fs) (jit_new b m) = Some s4 -> 0 <= b -> b + cursor s4 < 2 ^ 64 ->
  forall f, In f fs -> exists a, label_addr s4 (v_name f) = Some a /\
  forall room x v st sp, returns fs room f x v -> wf st -> holds (mem s4) b (b + cursor s4) st -> regs st 7 = x -> regs st 4 = sp ->
    room <= sp -> sp + 8 <= 2 ^ 64 -> b + cursor s4 <= sp - room \/ sp <= b ->
    exists k st', cpu k a st = Some (quad (mm st) sp, st') /\ regs st' 0 = v /\ regs st' 4 = u64 (sp + 8) /\
      (forall i, saved i -> regs st' i = regs st i) /\ xmms st' = xmms st /\ forall y, ~ (sp - room <= y < sp) -> mm st' y = mm st y.
Proof. exact vm_correct. Qed.
Print Assumptions C59.
(** Programs that are small enough are assembled: every call returns, finalize too. *)
Theorem C59_accepted : forall labels fs b m, vm_ok labels fs -> 15 * vm_size fs <= PAGE_SIZE -> exists s4, calls (vm_jit labels fs) (jit_new b m) = Some s4.
Proof. exact vm_accepted. Qed.
Print Assumptions C59_accepted.
(** The function of the README is one of these programs, with the same bytes. *)
Example C59_fibo : vm_ok 4 [fibV] /\ returns [fibV] 384 fibV 6 8 /\
  forall m, view (List.length fibo_image) (calls (vm_jit 4 [fibV]) (jit_new 0 m)) = view (List.length fibo_image) (run fibo_jit (jit_new 0 m)).
Proof. exact (conj fib_ok (conj fib6 fib_same)). Qed.
(** Three functions, of which two call each other and one has a loop and two variables. *)
Example C59_case : vm_ok 9 progV /\ returns progV 384 evenV 5 0 /\ returns progV 384 oddV 5 1.
Proof. exact (conj prog_vm_ok even5). Qed.
(** The sum n + .. + 1 for every n, from the calls of the generator to rax. *)
Example C59_sum : forall b m, 0 <= b -> b + PAGE_SIZE < 2 ^ 64 -> exists s4 a, calls (vm_jit 9 progV) (jit_new b m) = Some s4 /\ label_addr s4 6%nat = Some a /\
  forall n st sp, (0 < n)%nat -> wf st -> holds (mem s4) b (b + PAGE_SIZE) st -> regs st 7 = Z.of_nat n -> regs st 4 = sp -> 64 <= sp -> sp + 8 <= 2 ^ 64 ->
    b + PAGE_SIZE <= sp - 64 \/ sp <= b ->
    exists k st', cpu k a st = Some (quad (mm st) sp, st') /\ regs st' 0 = u64 (sum_to n).
Proof. exact sum_machine. Qed.

(** ** C60.  With puts: the same for programs that call functions outside the generated code (such as those of
    monoasm::test).  Whatever these functions do within the calling convention, the program calls them in the order and
    with the values that it says as a program of the virtual machine, each time with the stack aligned as the convention
    asks, and then returns its value; memory stays as it was but for the stack and what the functions own. *)
Theorem C60 : forall labels fs b m s4, vm_ok labels fs -> calls (vm_jit labels fs) (jit_new b m) = Some s4 -> 0 <= b -> b + cursor s4 < 2 ^ 64 ->
  forall f, In f fs -> exists a, label_addr s4 (v_name f) = Some a /\
  forall h room x out v st sp, abi h -> (forall p, h_at h p = true -> ~ (b <= p < b + cursor s4)) -> prints fs (h_at h) (h_need h) room f x out v ->
    wf st -> holds (mem s4) b (b + cursor s4) st -> regs st 7 = x -> regs st 4 = sp -> sp mod 16 = 8 ->
    room <= sp -> sp + 8 <= 2 ^ 64 -> b + cursor s4 <= sp - room \/ sp <= b ->
    (forall y, h_own h y -> ~ (b <= y < b + cursor s4) /\ ~ (sp - room <= y < sp + 8)) ->
    exists k st', hosted h k [] a st = Some (out, quad (mm st) sp, st') /\
      (forall j out' pc st1, (j < k)%nat -> hosted h j [] a st = Some (out', pc, st1) -> h_at h pc = true -> regs st1 4 mod 16 = 8) /\
      regs st' 0 = v /\ regs st' 4 = u64 (sp + 8) /\ (forall i, saved i -> regs st' i = regs st i) /\
      forall y, ~ (sp - room <= y < sp) -> ~ h_own h y -> mm st' y = mm st y.
Proof. exact vm_prints. Qed.
Print Assumptions C60.
(** A recursive function that prints its argument and all numbers below it, for every argument; the function it prints with counts in a
    byte of its own and destroys all the convention lets it destroy. *)
Example C60_case : vm_ok 3 [downV] /\ abi counter /\
  forall n room, Z.of_nat n < 2 ^ 64 -> 64 * Z.of_nat n + 1064 <= room -> prints [downV] (h_at counter) (h_need counter) room downV (Z.of_nat n) (down n) 7.
Proof. exact (conj down_ok (conj counter_abi down_prints)). Qed.
