(** Property C56: a program that grows and is patched while it lives.  [lives s0 s prog] (SpecLive.v): since the
    reached state [s0] blocks were added by histories of calls that end with a finalize, direct jumps and calls were
    patched with apply_jmp_patch or apply_jmp_patch_address, and [prog] is the source with those jumps rewritten. *)
From Verif Require Import Base ModelMem ModelEnc ModelSyntax ModelMacro SpecX86 SpecAsm SpecTaken SpecState SpecHist MemDemo SpecProg SpecMachine SpecScope SpecMulti SpecLive LivePatch LiveDemo.
Local Open Scope list_scope.
Local Open Scope Z_scope.

(** ** C56.  Every block is in memory as its current source, the blocks apart from each other, and on any machine that
    executes instructions by their meaning, n steps of the current source are n steps of the machine. *)
Theorem C56 : forall mstate sem s0 s prog, (forall x y next st, same_ins x y -> sem x next st = sem y next st) -> reached s0 -> lives s0 s prog ->
  exists ws, Forall2 (placed s) prog ws /\ ForallOrdPairs behind ws /\
    forall n w st, proper prog w -> same_prun mstate sem (mrun mstate sem (mem s)) prog (final s) (marks_of s ws) n w st.
Proof. exact live_runs. Qed.
Print Assumptions C56.
(** The same on the processor of SpecMachine.v, as long as the program leaves its blocks alone. *)
Theorem C56_cpu : forall s0 s prog, reached s0 -> lives s0 s prog ->
  exists ws, Forall2 (placed s) prog ws /\ ForallOrdPairs behind ws /\
    (forall l, label_addr s l <> None -> where_is (marks_of s ws) (goto prog (final s) (marks_of s ws) l) = final s l /\ proper prog (goto prog (final s) (marks_of s ws) l)) /\
    forall n w st, proper prog w -> keeps_blocks (mem s) prog (final s) (marks_of s ws) n w st -> same_prun mach x86 cpu prog (final s) (marks_of s ws) n w st.
Proof. exact live_cpu. Qed.
Print Assumptions C56_cpu.
(** Nothing moves.  While the program grows the old blocks stay where they are, and whoever is at an instruction of
    them stays there; *)
Theorem C56_grow : forall s0 s prog ops s', reached s0 -> lives s0 s prog -> forallb api ops = true -> run (ops ++ [OFinalize]) s = Some s' ->
  bound_once (ops ++ [OFinalize]) s -> complete ops s s' ->
  exists ws vs, Forall2 (placed s) prog ws /\ Forall2 (placed s') (prog ++ blocks ops s) (ws ++ vs) /\
    (forall w, proper prog w -> proper (prog ++ blocks ops s) w /\ where_is (marks_of s' (ws ++ vs)) w = where_is (marks_of s ws) w).
Proof. exact live_grows. Qed.
Print Assumptions C56_grow.
(** and so it is when a jump is patched. *)
Theorem C56_patch : forall s0 s pre b post o l d k y s' b', reached s0 -> lives s0 s (pre ++ b :: post) -> patch_point b l k -> patches s o l d -> step o s = Ok y s' -> retargeted b k d b' ->
  exists ws, Forall2 (placed s) (pre ++ b :: post) ws /\ Forall2 (placed s') (pre ++ b' :: post) ws /\
    (forall w, proper (pre ++ b :: post) w -> proper (pre ++ b' :: post) w /\ where_is (marks_of s' ws) w = where_is (marks_of s ws) w).
Proof. exact live_patched. Qed.
Print Assumptions C56_patch.
(** Wherever the blocks of a program are, it runs as its source: so a program interrupted between two instructions
    goes on, after C56_grow or C56_patch, from the same address, as its new source. *)
Theorem C56_run : forall mstate sem s prog ws, (forall x y next st, same_ins x y -> sem x next st = sem y next st) -> Forall2 (placed s) prog ws ->
  forall n w st, proper prog w -> same_prun mstate sem (mrun mstate sem (mem s)) prog (final s) (marks_of s ws) n w st.
Proof. exact placed_runs. Qed.
Print Assumptions C56_run.
(** a: movq rax, 5; b: jmp c; c: addq rax, 1; ret.  Later p: addq rax, 10; jmp c is assembled on page 1, b is patched to
    go to p, and back to c. *)
Example C56_case : reached newD /\ lives newD sL2 [blkL "c"; blkM] /\ lives newD sL3 [blkL "p"; blkM] /\ lives newD sL4 [blkL "c"; blkM] /\
  map (shownL sL2 [blkL "c"; blkM]) (seq 0 4) = [Some (At 0 1, 0); Some (At 0 3, 5); Some (At 0 5, 5); Some (At 0 6, 6)] /\
  map (shownL sL3 [blkL "p"; blkM]) (seq 0 6) = [Some (At 0 1, 0); Some (At 0 3, 5); Some (At 1 1, 5); Some (At 1 2, 15); Some (At 0 5, 15); Some (At 0 6, 16)] /\
  cpuL sL2 3 = Some 6 /\ cpuL sL3 5 = Some 16 /\ cpuL sL4 3 = Some 6.
Proof. exact case56. Qed.
(** Conditional jumps are not meant by [retargeted], and could not be: the patch of a label before one returns normally
    and overwrites its opcode. *)
Theorem C56_jcc_refuted : exists s s' l d a,
  reached s /\ label_addr s l = Some a /\ label_addr s d <> None /\ (forall rest, decode (read (mem s) a 6 ++ rest) = Some (mkIns (Jcc 4) W64 [ORel 1], rest)) /\
  step (OPatch l d) s = Ok None s' /\ (forall rest, decode (read (mem s') a 6 ++ rest) = None).
Proof. exact patched_jcc. Qed.
Print Assumptions C56_jcc_refuted.
