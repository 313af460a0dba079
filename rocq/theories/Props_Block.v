(** Properties C48 and C49: blocks whose operands may be anything, cvttsd2siq and roundpd with a label
    included.  [as_linked] (SpecTaken) is the instruction a statement is assembled as; for the
    operands C08, C34 and C44 allow it is the one written.  The other notions are those of
    SpecProg and SpecCpu; [ev], [lenv], [r] and [s] are as in Props_Prog. *)
From Verif Require Import Base ModelMem ModelEnc ModelSyntax ModelMacro SpecX86 SpecAsm SpecTaken SpecState SpecHist MemDemo SpecProg ProgBlock ProgExec ProgDemo SpecMachine SpecCpu MachRun MachDemo BlockTaken BlockDemo BlockConst ConstDemo.
Local Open Scope Z_scope.

(** ** C48.  After linking, the processor does, step for step, what the statements as taken say;
    as long as the program does not write over the block. *)
Theorem C48 : forall ev lenv r body s o s1 ops s4 target,
  reached s -> Forall (regular ev r) body -> step (OAsm ev lenv r body) s = Ok o s1 -> forallb api ops = true -> run ops s1 = Some s4 ->
  (forall x, In x (body_labels body) -> linked ops s1 (lenv x) = Some (target x)) -> own_labels lenv body s ops ->
  exists marks, listing (as_linked (eval ev r)) target s4 (cur s) marks body /\ hd_error marks = Some (cursor s) /\ last marks 0 = cursor s1 /\
    (forall j x a, nth_error body j = Some (ILabel x) -> linked ops s1 (lenv x) = Some a -> a = addr s4 (cur s) (nth j marks 0)) /\
    forall n k st, (k <= List.length body)%nat ->
      keeps_code (mem s4) (addr s4 (cur s) (cursor s)) (addr s4 (cur s) (cursor s1)) (as_linked (eval ev r)) target (fun k => addr s4 (cur s) (nth k marks 0)) body n k st ->
      same_cpu (as_linked (eval ev r)) target (fun k => addr s4 (cur s) (nth k marks 0)) body n k st.
Proof. exact program_cpu_any. Qed.
Print Assumptions C48.
(** The same on any machine, whatever its instructions do. *)
Theorem C48_runs : forall mstate sem ev lenv r body s o s1 ops s4 target,
  (forall x y next st, same_ins x y -> sem x next st = sem y next st) ->
  reached s -> Forall (regular ev r) body -> step (OAsm ev lenv r body) s = Ok o s1 -> forallb api ops = true -> run ops s1 = Some s4 ->
  (forall x, In x (body_labels body) -> linked ops s1 (lenv x) = Some (target x)) -> own_labels lenv body s ops ->
  exists marks, listing (as_linked (eval ev r)) target s4 (cur s) marks body /\ hd_error marks = Some (cursor s) /\ last marks 0 = cursor s1 /\
    forall n k st, (k <= List.length body)%nat ->
      same_run mstate sem (as_linked (eval ev r)) target (fun k => addr s4 (cur s) (nth k marks 0)) body (mem s4) n k st.
Proof. exact program_runs_any. Qed.
Print Assumptions C48_runs.
(** The disassembly needs nothing of the labels the block defines. *)
Theorem C48_listing : forall ev lenv r body s o s1 ops s4 target,
  reached s -> Forall (regular ev r) body -> step (OAsm ev lenv r body) s = Ok o s1 -> forallb api ops = true -> run ops s1 = Some s4 ->
  (forall x, In x (body_labels body) -> linked ops s1 (lenv x) = Some (target x)) ->
  exists marks, listing (as_linked (eval ev r)) target s4 (cur s) marks body /\ hd_error marks = Some (cursor s) /\ last marks 0 = cursor s1.
Proof. exact block_listing_any. Qed.
Print Assumptions C48_listing.
(** A block that fits and whose labels exist is assembled exactly if each of its statements is,
    as taken, a label, data or an x86 instruction. *)
Theorem C48_accepted : forall ev lenv r body s,
  Forall (regular ev r) body -> compile_all body <> None -> cursor s + 15 * Z.of_nat (List.length body) <= PAGE_SIZE ->
  (forall x, In x (body_labels body) \/ In x (defined body) -> (lenv x < List.length (labels s))%nat) ->
  ((exists s1, step (OAsm ev lenv r body) s = Ok None s1) <-> Forall (taken_as_ins (eval ev r)) body).
Proof. exact block_total. Qed.
Print Assumptions C48_accepted.
(** Statements without the operands that go wrong are assembled as written. *)
Theorem C48_plain : forall ev r i rel, plain ev r i -> is_instr i = true -> as_linked (eval ev r) rel i = denote (eval ev r) rel i.
Proof. exact plain_as_linked. Qed.
Print Assumptions C48_plain.
Example C48_case : reached sT /\ Forall (regular evD rD) progT /\ step opT sT = Ok None sT1 /\ run hT sT1 = Some sT4 /\ own_labels lenvD progT sT hT /\
  (forall x, In x (body_labels progT) -> linked hT sT1 (lenvD x) = Some (targetT x)) /\
  as_linked (eval evD rD) (fun l => targetT l - atT 4) (nth 3 progT IRet) = Some (mkIns Roundpd W64 [OXmm 1; OMem (mkMem (Some BRip) None (48 + 1 - 29)); OImm 1]) /\
  (exists st, srun mach x86 (as_linked (eval evD rD)) targetT atT progT 2 (Stmt 0) (stG (mem sT4)) = Inside (Stmt 3) st /\ regs st 9 = 7 /\ regs st 0 = 2 ^ 31) /\
  (exists st, cpu 2 (65536 + 1) (stG (mem sT4)) = Some (65536 + 19, st) /\ regs st 9 = 7 /\ regs st 0 = 2 ^ 31) /\
  srun mach x86 (as_linked (eval evD rD)) targetT atT progT 3 (Stmt 0) (stG (mem sT4)) = Faulted /\ cpu 3 (65536 + 1) (stG (mem sT4)) = None.
Proof. exact case48. Qed.
Example C48_bytes_case : Forall (taken_as_ins (eval evD rD)) progT /\ bytes sT4 P0 1 39 =
  [0x49; 0xb9; 7; 0; 0; 0; 0; 0; 0; 0;  0xf2; 0x0f; 0x2c; 5; 29; 0; 0; 0;  0x66; 0x0f; 0x3a; 9; 13; 20; 0; 0; 0; 1;
   0x49; 0x83; 0xe9; 7;  0x0f; 0x85; 0xe4; 0xff; 0xff; 0xff;  0xc3].
Proof. exact (conj takenT bytesT). Qed.

(** ** C49.  What code finds at the labels of constants, data and absolute addresses.
    [made d l s] says that [l] is the label a constant-creating call returned for [d] in the
    history of [s]; [at_label x] is the operand [rip + x].  Whatever is called before the block
    and after it, on the processor, in any state holding the block and the constant:
    an operand [rip + x] reads the first bytes of the constant; movq and movsd load them;
    a store goes to the bytes of the datum; and jmp through the absolute address of a label
    of the block continues at that label.  (A label operand of roundpd is one byte off: C07.) *)
Theorem C49 : forall ev lenv r body s s1 ops s4 target, linked_block ev lenv r body s s1 ops s4 target ->
  exists marks, let at_ := fun k => addr s4 (cur s) (nth k marks 0) in
  let in_code := holds (mem s4) (addr s4 (cur s) (cursor s)) (addr s4 (cur s) (cursor s1)) in
  listing (as_linked (eval ev r)) target s4 (cur s) marks body /\ hd_error marks = Some (cursor s) /\ last marks 0 = cursor s1 /\
  (forall k i x d w st, nth_error body k = Some i -> In (at_label x) (mems_of i) -> is_roundpd_label i = false ->
     made d (lenv x) s -> unbound_by lenv body ops (lenv x) -> is_abs d = false -> Z.of_nat (size w) <= dat_len d ->
     holds (mem s4) (target x) (target x + dat_len d) st ->
     exists ins o, as_linked (eval ev r) (fun l => target l - at_ (S k)) i = Some ins /\ In o (i_ops ins) /\
       get w (at_ (S k)) st o = Some (unle (firstn (size w) (dat_bytes d)))) /\
  (forall k n x d st, nth_error body k = Some (IMovq (MovReg (RReg n)) (MovInd (at_label x))) -> 0 <= n < 16 ->
     made d (lenv x) s -> unbound_by lenv body ops (lenv x) -> is_abs d = false -> 8 <= dat_len d ->
     in_code st -> holds (mem s4) (target x) (target x + dat_len d) st ->
     cpu_step (at_ k) st = Some (at_ (S k), put_reg W64 n (unle (firstn 8 (dat_bytes d))) st)) /\
  (forall k n x d st, nth_error body k = Some (IMovsd (XmXmm (ELit n)) (XmInd (at_label x))) -> 0 <= n < 16 ->
     made d (lenv x) s -> unbound_by lenv body ops (lenv x) -> is_abs d = false -> 8 <= dat_len d ->
     in_code st -> holds (mem s4) (target x) (target x + dat_len d) st ->
     cpu_step (at_ k) st = Some (at_ (S k), put_xmm n (unle (firstn 8 (dat_bytes d))) st)) /\
  (forall k n x d st, nth_error body k = Some (IMovq (MovInd (at_label x)) (MovReg (RReg n))) -> 0 <= n < 16 ->
     made d (lenv x) s -> unbound_by lenv body ops (lenv x) -> is_abs d = false -> 8 <= dat_len d ->
     in_code st -> cpu_step (at_ k) st = Some (at_ (S k), set_mm (poke (mm st) (target x) (le 8 (regs st n))) st)) /\
  (forall k x j y st, nth_error body k = Some (IJmp (DestInd (at_label x))) -> nth_error body j = Some (ILabel y) ->
     made (KAbs (lenv y)) (lenv x) s -> unbound_by lenv body ops (lenv x) -> loc_of s (lenv y) = None ->
     in_code st -> holds (mem s4) (target x) (target x + 8) st -> cpu_step (at_ k) st = Some (at_ j, st)).
Proof. exact block_reads. Qed.
Print Assumptions C49.
(** The bytes are there once linked, inside the allocation. *)
Theorem C49_found : forall ev lenv r body s s1 ops s4 target, linked_block ev lenv r body s s1 ops s4 target ->
  forall x d, In x (body_labels body) -> made d (lenv x) s -> unbound_by lenv body ops (lenv x) ->
  base s <= target x /\ target x + dat_len d <= base s + 3 * PAGE_SIZE /\
  (is_abs d = false -> read (mem s4) (target x) (List.length (dat_bytes d)) = dat_bytes d).
Proof. exact const_found. Qed.
Print Assumptions C49_found.
Example C49_case : linked_block evD lenvK rD progK sK sK1 hK sK4 targetK /\
  made (KI64 1000) (lenvK "c") sK /\ made (KAbs (lenvK "a")) (lenvK "t") sK /\ made (DI64 5) (lenvK "v") sK /\
  (forall x, x <> "a"%string -> unbound_by lenvK progK hK (lenvK x)) /\ loc_of sK (lenvK "a") = None /\
  read (mem sK4) (targetK "c") 8 = le 8 1000 /\ read (mem sK4) (targetK "t") 8 = le 8 (targetK "a") /\
  exists st, cpu 5 (65536 + 1) (stG (mem sK4)) = Some (65536 + 37, st) /\ regs st 3 = 2000 /\ xmms st 1 = 1000 /\ quad (mm st) (targetK "v") = 1000.
Proof. exact case49. Qed.
