(** Property C54: programs assembled in several monoasm! blocks.  A history [ops] from a reached state [s0], with
    any other calls, pages, finalizes and caught panics between the blocks, and a last finalize that leads to [s4].
    SpecMulti.v has the interpreter of the source: [At u k] is statement [k] of block [u]. *)
From Verif Require Import Base ModelMem ModelEnc ModelSyntax ModelMacro SpecX86 SpecAsm SpecTaken SpecState SpecHist MemDemo SpecProg SpecMachine SpecScope SpecMulti MultiPlace MultiRun MultiDemo.
Local Open Scope Z_scope.

(** ** C54.  Each block is in memory as its statements, with the final addresses of the labels of all blocks put in,
    and on any machine that executes instructions by their meaning, n steps of the source are n steps of the machine. *)
Theorem C54 : forall mstate sem ops s0 s4, (forall x y next st, same_ins x y -> sem x next st = sem y next st) ->
  reached s0 -> forallb api ops = true -> run (ops ++ [OFinalize]) s0 = Some s4 -> bound_once (ops ++ [OFinalize]) s0 -> complete ops s0 s4 ->
  exists ws, Forall2 (placed s4) (blocks ops s0) ws /\
    forall n w st, proper (blocks ops s0) w -> same_prun mstate sem (mrun mstate sem (mem s4)) (blocks ops s0) (final s4) (marks_of s4 ws) n w st.
Proof. exact program_runs_multi. Qed.
Print Assumptions C54.
(** The same on the processor of SpecMachine.v, which fetches from its own memory, as long as the program leaves its
    blocks alone; whoever goes to the address of a label is at the statement that defines it. *)
Theorem C54_cpu : forall ops s0 s4,
  reached s0 -> forallb api ops = true -> run (ops ++ [OFinalize]) s0 = Some s4 -> bound_once (ops ++ [OFinalize]) s0 -> complete ops s0 s4 ->
  exists ws, Forall2 (placed s4) (blocks ops s0) ws /\
    (forall l, label_addr s4 l <> None -> where_is (marks_of s4 ws) (goto (blocks ops s0) (final s4) (marks_of s4 ws) l) = final s4 l /\
       proper (blocks ops s0) (goto (blocks ops s0) (final s4) (marks_of s4 ws) l)) /\
    forall n w st, proper (blocks ops s0) w -> keeps_blocks (mem s4) (blocks ops s0) (final s4) (marks_of s4 ws) n w st ->
      same_prun mach x86 cpu (blocks ops s0) (final s4) (marks_of s4 ws) n w st.
Proof. exact program_cpu_multi. Qed.
Print Assumptions C54_cpu.
(** Three blocks, two on page 0 and one on page 1 between them, that call each other; the first runs on into the third. *)
Example C54_case : reached newD /\ forallb api hM = true /\ run (hM ++ [OFinalize]) newD = Some sM /\ bound_once (hM ++ [OFinalize]) newD /\ complete hM newD sM /\
  progM = [mkBlk evD lenvD rD bodyA; mkBlk evD lenvD rD bodyB; mkBlk evD lenvD rD bodyC] /\
  map (fun n => shownM (prun mach x86 progM (final sM) atM n (goto progM (final sM) atM (lenvD "a")) stM)) (seq 0 10) =
    [Some (At 0 1, 0, 4096); Some (At 0 2, 5, 4096); Some (At 1 1, 5, 4088); Some (At 1 2, 7, 4088); Some (At 2 1, 7, 4080); Some (At 2 2, 8, 4080);
     Some (At 1 3, 8, 4088); Some (At 2 1, 8, 4096); Some (At 2 2, 9, 4096); Some (Away 0, 9, 4104)] /\
  match cpu 9 65536 stM' with Some (pc, st) => regs st 0 = 9 /\ regs st 4 = 4104 | None => False end.
Proof. exact case54. Qed.
