(** Property C64: the program runs, other code runs, more code is assembled, jumps are patched, the program goes on
    (SpecStory.v): whatever happens and in whatever order, processor and source stay in step.  The processor and the
    assembler share one memory. *)
From Verif Require Import Base ModelMem ModelSyntax ModelMacro SpecX86 SpecAsm SpecState SpecHist MemDemo SpecProg SpecMachine SpecScope SpecMulti SpecLive LiveDemo SpecStory StoryFacts StoryDemo.
Local Open Scope list_scope.
Local Open Scope Z_scope.

(** ** C64.  From every state of every program that lives: [follows es ...] says that after each happening in [es] the
    blocks, old and new, are in memory as their current source, and that the processor, executing the bytes there, is at
    the address of the statement the source is at and in the same state.  The program and the other code may write
    anywhere except into the blocks and into fields of unresolved references. *)
Theorem C64 : forall s0 s prog, reached s0 -> lives s0 s prog ->
  exists ws, forall es w st, proper prog w -> untouched s prog (marks_of s ws) (mem s) (mm st) ->
    follows es s prog ws w (where_is (marks_of s ws) w) st.
Proof. exact story. Qed.
Print Assumptions C64.
(** a: movq rax, 5; b: jmp c; c: addq rax, 1; ret is called by other code that has written a return address; after its
    first instruction p: addq rax, 10; jmp c is assembled on page 1 and the jump at b is patched to go to p; the program
    goes on from b and returns with 16 in rax. *)
Example C64_case :
  reached newD /\ lives newD sL1 [blkL "c"] /\ untouched sL1 [blkL "c"] (marks_of sL1 wsA) (mem sL1) (mm stA) /\
  keeps_blocks (mm stA) [blkL "c"] (final sL1) (marks_of sL1 wsA) 1 (At 0 1) stA /\ StoryDemo.runA 1 stA = PInside mach (At 0 3) stB /\ untouched sL1 [blkL "c"] (marks_of sL1 wsA) (mm stA) (mm stB) /\
  run (hL2 ++ [OFinalize]) (seen stB sL1) = Some StoryDemo.sB /\ bound_once (hL2 ++ [OFinalize]) (seen stB sL1) /\ complete hL2 (seen stB sL1) StoryDemo.sB /\ blocks hL2 (seen stB sL1) = [blkM] /\
  step oL3 (seen stC StoryDemo.sB) = Ok None StoryDemo.sC /\ patches StoryDemo.sB oL3 (lenvD "b") (lenvD "p") /\
  keeps_blocks (mm stD) [blkL "p"; blkM] (final StoryDemo.sC) (marks_of StoryDemo.sC placesL) 5 (At 0 3) stD /\ inside (runD 5 stD) = Away 4608 /\ regs (state (runD 5 stD)) 0 = 16 /\
  option_map fst (cpu 1 65536 stA) = Some 65546 /\ option_map (fun x => (fst x, regs (snd x) 0)) (cpu 5 65546 stD) = Some (4608, 16).
Proof. exact case64. Qed.
