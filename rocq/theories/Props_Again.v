(** Property C69: programs assembled in several monoasm! blocks whose labels may be bound again.  A history [ops] from a
    reached state [s0] leads to [s4]; [program ops s0] is its blocks, each with what labels stand for in it (SpecAgain.v):
    the place where the label was bound last before the first finalize, after the block, that finds it bound. *)
From Verif Require Import Base ModelMem ModelEnc ModelSyntax ModelMacro SpecX86 SpecAsm SpecTaken SpecState SpecHist MemDemo SpecProg SpecMachine SpecScope SpecMulti MultiDemo SpecAgain AgainPlace AgainRun AgainDemo.
Local Open Scope Z_scope.

(** ** C69.  Each block is in memory as its statements, with these addresses put in, and on any machine that executes
    instructions by their meaning, n steps of the source are n steps of the machine. *)
Theorem C69 : forall mstate sem ops s0 s4, (forall x y next st, same_ins x y -> sem x next st = sem y next st) ->
  reached s0 -> forallb api ops = true -> run ops s0 = Some s4 -> all_linked (program ops s0) ->
  exists ws, Forall2 (placed_as s4) (program ops s0) ws /\
    forall n w st, proper (prog (program ops s0)) w -> same_arun mstate sem (mrun mstate sem (mem s4)) (program ops s0) (marks_of s4 ws) n w st.
Proof. exact program_runs_again. Qed.
Print Assumptions C69.
(** The same on the processor of SpecMachine.v, as long as the program leaves its blocks alone; and where a label stands
    for a statement, that is a definition of the label, and the address is that of the statement. *)
Theorem C69_cpu : forall ops s0 s4,
  reached s0 -> forallb api ops = true -> run ops s0 = Some s4 -> all_linked (program ops s0) ->
  exists ws, Forall2 (placed_as s4) (program ops s0) ws /\
    (forall p l a u k, In p (program ops s0) -> p_refers p l = Some (a, ByStmt u k) ->
       a = marks_of s4 ws u k /\ exists b x, nth_error (prog (program ops s0)) u = Some b /\ stmt (prog (program ops s0)) u k = Some (ILabel x) /\ b_lenv b x = l) /\
    forall n w st, proper (prog (program ops s0)) w -> keeps_pieces (mem s4) (program ops s0) (marks_of s4 ws) n w st ->
      same_arun mach x86 cpu (program ops s0) (marks_of s4 ws) n w st.
Proof. exact program_cpu_again. Qed.
Print Assumptions C69_cpu.
(** A block that is finalized before anything else happens goes, at the labels it defines, to its own statements, the last
    ones that define them (unless a constant with the label is to be placed): labels may be used again by other blocks,
    before and after. *)
Theorem C69_own : forall ops s0 s4 pre ev lenv r body rest s,
  reached s0 -> forallb api ops = true -> run ops s0 = Some s4 -> all_linked (program ops s0) ->
  ops = (pre ++ OAsm ev lenv r body :: OFinalize :: rest)%list -> run pre s0 = Some s -> (exists y s1, step (OAsm ev lenv r body) s = Ok y s1) ->
  exists u p, nth_error (program ops s0) u = Some p /\ p_blk p = mkBlk ev lenv r body /\
    forall x, In (ILabel x) body -> waits s (lenv x) = false -> exists a k y, p_refers p (lenv x) = Some (a, ByStmt u k) /\ nth_error body k = Some (ILabel y) /\ lenv y = lenv x /\
      forall j z, (k < j)%nat -> nth_error body j = Some (ILabel z) -> lenv z <> lenv x.
Proof. exact own_label. Qed.
Print Assumptions C69_own.
(** Three blocks that bind the label b, of which the first is finalized at once.  Its jump goes to its own b; the jump of
    the second goes to the b of the third, which was bound last. *)
Example C69_case : reached newD /\ forallb api hA = true /\ run hA newD = Some sA /\ all_linked psA /\
  map p_blk psA = [mkBlk evD lenvD rD bodyX; mkBlk evD lenvD rD bodyY; mkBlk evD lenvD rD bodyZ] /\ whereA =
    [(Some (65536, ByStmt 0 0), Some (65536 + 19, ByStmt 0 4), Some (65536 + 20, ByStmt 1 0));
     (Some (65536, ByStmt 0 0), Some (65536 + 39, ByStmt 2 0), Some (65536 + 20, ByStmt 1 0));
     (Some (65536, ByStmt 0 0), Some (65536 + 39, ByStmt 2 0), Some (65536 + 20, ByStmt 1 0))] /\
  map (fun n => shownM (arun mach x86 psA atA n (At 1 1) stA)) (seq 0 9) =
    [Some (At 1 1, 0, 4096); Some (At 0 1, 0, 4088); Some (At 0 2, 5, 4088); Some (At 0 5, 5, 4088); Some (At 1 2, 5, 4096); Some (At 1 3, 7, 4096);
     Some (At 2 1, 7, 4096); Some (At 2 2, 8, 4096); Some (Away 0, 8, 4104)] /\
  match cpu 8 (65536 + 20) stA with Some (pc, st) => pc = 0 /\ regs st 0 = 8 /\ regs st 4 = 4104 | None => False end.
Proof. exact case69. Qed.
(** A block that defines the label of a constant: its jump goes to the constant, which finalize places at 16. *)
Example C69_constant : run hK newD = Some sK /\ map (fun p => p_refers p 0%nat) (program hK newD) = [Some (65536 + 16, Otherwise)] /\
  bytes sK P0 0 5 = [0xe9; 11; 0; 0; 0] /\ bytes sK P0 16 8 = [7; 0; 0; 0; 0; 0; 0; 0].
Proof. exact caseK. Qed.
