(** Specification: a program, statement by statement, on the processor of SpecMachine.v. *)
From Verif Require Import Base ModelMem ModelSyntax ModelMacro SpecX86 SpecState SpecHist SpecProg SpecMachine.
Local Open Scope Z_scope.

(** What C34 says of any machine, for the processor of this file: n steps of the
    program, statement by statement, are n steps of the processor on the bytes in its own memory. *)
Definition same_cpu (mean : (string -> Z) -> inst -> option ins) (target : string -> Z) (at_ : nat -> Z) (body : list inst) (n k : nat) (st : mach) : Prop :=
  match srun mach x86 mean target at_ body n (Stmt k) st with
  | Inside q st' => cpu n (at_ k) st = Some (place_addr at_ q, st')
  | Faulted => cpu n (at_ k) st = None
  | Gone j a st' => (j <= n)%nat /\ cpu (n - j) (at_ k) st = Some (a, st')
  end.
(** The program leaves its own code in [a, b) as it is in [m] for n steps. *)
Definition keeps_code (m : Z -> Z) (a b : Z) (mean : (string -> Z) -> inst -> option ins) (target : string -> Z) (at_ : nat -> Z) (body : list inst) (n k : nat) (st : mach) : Prop :=
  forall j q st', (j <= n)%nat -> srun mach x86 mean target at_ body j (Stmt k) st = Inside q st' -> holds m a b st'.
(** [l] is the label of the constant or datum [d], created in the history of [s] and not bound again by the caller. *)
Definition made (d : dat) (l : label) (s : jit) : Prop :=
  exists s0 s1 ops, reached s0 /\ step (OCreate d) s0 = Ok (Some l) s1 /\ forallb api ops = true /\ run ops s1 = Some s /\
    forall o, In o ops -> ~ binds_label o l.
(** The block [body] assembled in state [s] gives [s1], the calls [ops] finish the history in state [s4] and link
    every label [x] the block refers to at the address [target x]. *)
Record linked_block (ev : list tok -> env -> Z) (lenv : string -> label) (r : env) (body : list inst) (s s1 : jit) (ops : list op) (s4 : jit) (target : string -> Z) : Prop := mkLinked {
  lb_reached : reached s;
  lb_regular : Forall (regular ev r) body;
  lb_step : step (OAsm ev lenv r body) s = Ok None s1;
  lb_api : forallb api ops = true;
  lb_run : run ops s1 = Some s4;
  lb_target : forall x, In x (body_labels body) -> linked ops s1 (lenv x) = Some (target x);
  lb_own : own_labels lenv body s ops;
  lb_base : 0 <= base s /\ base s + 3 * PAGE_SIZE < 2 ^ 64
}.
(** Neither the block nor the calls after it bind the label. *)
Definition unbound_by (lenv : string -> label) (body : list inst) (ops : list op) (l : label) : Prop :=
  (forall x, In x (defined body) -> lenv x <> l) /\ forall o, In o ops -> ~ binds_label o l.
(** The operand [rip + x]. *)
Definition at_label (x : string) : ind_addr := mkInd (RReg 16) PScaleNone (PLabel x).
(** The registers a called function has to restore, besides rsp (System V): rbx, rbp, r12-r15. *)
Definition saved (i : Z) : Prop := i = 3 \/ i = 5 \/ i = 12 \/ i = 13 \/ i = 14 \/ i = 15.
(** The 8 bytes at an address. *)
Definition quad (m : Z -> Z) (a : Z) : Z := unle (read m a 8).
(** The calls [ops] make a function at label [l], which is [off] bytes into [len] bytes of code: wherever
    the memory is allocated and whatever it held, a processor that holds the code, has its stack elsewhere,
    satisfies [pre] and is at the label gets back to the caller's address with rsp popped, the
    callee-saved registers restored, memory outside the offsets [d0, d1) of the allocation unchanged,
    and [post] holding between the two states. *)
Definition computes_at (ops : list op) (l : label) (off len d0 d1 : Z) (pre : mach -> Prop) (post : mach -> mach -> Prop) : Prop :=
  forall b m, 0 < b -> b + 3 * PAGE_SIZE <= 2 ^ 64 ->
  exists s, run ops (jit_new b m) = Some s /\ label_addr s l = Some (b + off) /\
    forall st, wf st -> holds (mem s) b (b + len) st -> regs st 4 + 8 <= b \/ b + 3 * PAGE_SIZE <= regs st 4 -> regs st 4 + 8 <= 2 ^ 64 -> pre st ->
      exists k st', cpu k (b + off) st = Some (quad (mm st) (regs st 4), st') /\ regs st' 4 = u64 (regs st 4 + 8) /\ (forall i, saved i -> regs st' i = regs st i) /\
        (forall x, ~ (b + d0 <= x < b + d1) -> mm st' x = mm st x) /\ post st st'.
(** The function at label 0, at the start of the code. *)
Definition computes (ops : list op) : Z -> Z -> Z -> (mach -> Prop) -> (mach -> mach -> Prop) -> Prop := computes_at ops 0%nat 0.
(** Fibonacci numbers. *)
Fixpoint fib (n : nat) : Z := match n with O => 0 | S O => 1 | S (S k as m) => fib m + fib k end.
(** Number of set bits, of zeros above the highest set bit and of zeros below the lowest one, of n-bit numbers. *)
Fixpoint sum_bits (n : nat) (v : Z) : Z := match n with O => 0 | S k => v mod 2 + sum_bits k (v / 2) end.
Definition is_ones (n : nat) (v c : Z) : Prop := c = sum_bits n v.
Definition is_lz (n : nat) (v c : Z) : Prop := c = if v =? 0 then Z.of_nat n else Z.of_nat n - 1 - Z.log2 v.
Definition is_tz (n : nat) (v c : Z) : Prop := if v =? 0 then c = Z.of_nat n else exists q, 0 <= c < Z.of_nat n /\ v = (2 * q + 1) * 2 ^ c.
(** A 128-bit dividend in rsi:rdi. *)
Definition dividend (st : mach) : Z := signed (2 ^ 128) (regs st 6 * 2 ^ 64 + regs st 7).
(** The quotient of the 32-bit arguments in edi and esi exists. *)
Definition div32_ok (st : mach) : Prop := i32 (regs st 6) <> 0 /\ ~ (i32 (regs st 7) = - 2 ^ 31 /\ i32 (regs st 6) = - 1).
