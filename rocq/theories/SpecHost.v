(** Functions outside the generated code that it calls (monoasm/src/test.rs 4-7, README.md 361-367): a processor that, at the
    address of such a function, lets it do its work instead of executing instructions.  [h_serve out p st] is the state in
    which the function at [p], called in state [st] after the calls [out], returns, if it does; it needs [h_need] bytes
    of stack and has memory [h_own] of its own.  The calls are recorded, with what is in rdi. *)
From Verif Require Import Base SpecX86 SpecMachine SpecCpu.
Local Open Scope list_scope.
Local Open Scope Z_scope.

Record host := mkHost { h_at : Z -> bool; h_serve : list (Z * Z) -> Z -> mach -> option mach; h_need : Z; h_own : Z -> Prop }.
Definition host_step (h : host) (out : list (Z * Z)) (pc : Z) (st : mach) : option (list (Z * Z) * Z * mach) :=
  if h_at h pc then
    match h_serve h out pc st with Some st' => Some (out ++ [(pc, regs st 7)], quad (mm st) (regs st 4), st') | None => None end
  else match cpu_step pc st with Some (pc', st') => Some (out, pc', st') | None => None end.
Fixpoint hosted (h : host) (n : nat) (out : list (Z * Z)) (pc : Z) (st : mach) : option (list (Z * Z) * Z * mach) :=
  match n with
  | O => Some (out, pc, st)
  | S n => match host_step h out pc st with Some (out', pc', st') => hosted h n out' pc' st' | None => None end
  end.
(** The calling convention (System V): a function called with the stack aligned returns, pops the return address, keeps the callee-saved
    registers and all memory but its own and what is below the stack pointer.  Nothing is said of a call with any other
    stack pointer, nor of rax, the other registers, the flags and the xmm registers. *)
Definition abi (h : host) : Prop := forall out p st, h_at h p = true -> wf st -> regs st 4 mod 16 = 8 -> h_need h <= regs st 4 -> regs st 4 + 8 <= 2 ^ 64 ->
  exists st', h_serve h out p st = Some st' /\ wf st' /\ regs st' 4 = u64 (regs st 4 + 8) /\ (forall i, saved i -> regs st' i = regs st i) /\
    forall y, ~ h_own h y -> ~ (regs st 4 - h_need h <= y < regs st 4) -> mm st' y = mm st y.
