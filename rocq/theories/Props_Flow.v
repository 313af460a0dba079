(** Property C62: expressions that use the assembler and may leave the block.  [ev ts r (w, s)] is the
    value of an expression, or none when it leaves, and the caller's state and the assembler
    afterwards; [f_block] (ModelFlow) runs the expansion of a block. *)
From Verif Require Import Base ModelMem ModelSyntax ModelMacro ModelEff ModelLeave ModelUse ModelFlow SpecX86 SpecAsm SpecState SpecHist MemDemo SpecProg ProgDemo SpecEff EffDemo SpecLeave SpecUse UseDemo SpecFlow FlowBlock FlowDemo.
Local Open Scope list_scope.
Local Open Scope Z_scope.

(** ** C62.  Statement by statement: the expressions, each once, in the order of C53, the immediate
    checked before the rest (if it is refused, an operand that the text of the panic shows is evaluated
    for it: the distance of a call and the immediate of a byte operation again, the register of movl and
    movb); the first that leaves ends the block, with the assembler as the
    expressions up to it made it of what the statements before left, and nothing of its own statement
    written; a statement none of whose expressions leaves is assembled with their values. *)
Theorem C62 : forall W ev lenv body r (w : W) s ev' q, Forall (fun i => evaluated_once i /\ prefix_of i = None) body -> e_compile_all body <> None ->
  ended (f_block W ev lenv r body w s) = values_flow W ev lenv ev' q r body (w, s).
Proof. exact block_flow. Qed.
Print Assumptions C62.
(** In every block: when no expression leaves, the block does what it does with expressions that
    never leave (C57). *)
Theorem C62_stays : forall W ev lenv r body (w : W) s, match f_block W ev lenv r body w s with
  | LOk _ r1 w1 s1 => u_block W (staying ev) lenv r body w s = EOk W r1 w1 s1
  | LFail _ e w1 s1 => u_block W (staying ev) lenv r body w s = EFail W e w1 s1
  | LLeft _ _ _ => True
  end.
Proof. exact flow_stays. Qed.
Print Assumptions C62_stays.
(** In every block: if the expressions, also the one that leaves, change the assembler by calls only,
    it is in a state reached by calls afterwards (unless the page is full). *)
Theorem C62_reached : forall W ev lenv, (forall ts r w s, reached s -> reached (snd (snd (ev ts r (w, s))))) ->
  forall body r (w : W) s, reached s -> e_compile_all body <> None ->
  match f_block W ev lenv r body w s with
  | LOk _ _ _ s1 | LLeft _ _ s1 => reached s1
  | LFail _ e _ s1 => e <> PageOverflow -> reached s1
  end.
Proof. exact flow_block_reached. Qed.
Print Assumptions C62_reached.
(** addl rbx, (skip()); movq [rcx + (pos())], (skip()); movl [rdx + (quit())], (skip()); ret
    where skip() emits the byte 90 and gives 5, pos() is the position on the page, and quit() emits
    the byte cc and leaves *)
Example C62_case : Forall (fun i => evaluated_once i /\ prefix_of i = None) progQ /\ is_left (runQ progQ) = true /\
  bytes (lfinal (runQ progQ)) P0 0 15 = [0x90; 0x83; 0xc3; 5;  0x90; 0x48; 0xc7; 0x41; 5; 5; 0; 0; 0;  0x90; 0xcc] /\ cursor (lfinal (runQ progQ)) = 15.
Proof. exact case62. Qed.
(** movl [rdx + (quit())], (big()) where big() is too large: panics, quit() is not evaluated *)
Example C62_case_early : ended (f_block Z evB lenvD rD progB 1 newD) = Stopped ImmRange.
Proof. exact case62_early. Qed.
(** subb rcx, (twice()) where twice() gives 300, and leaves when evaluated again; movl R(quit()), (big()):
    left by what the text of the panic shows.  subl R(quit()), (big()) panics: its text shows the immediate *)
Example C62_case_shown : leftT [ISub BYTE (RmReg (RReg 1)) (RmiImm (call "twice"))] = (3, 1, [0xcc]) /\
  leftT [IMovl (RmReg (RExpr (call "quit"))) (RmiImm (call "big"))] = (1, 1, [0xcc]) /\
  ended (f_block Z evT lenvD rD [ISub DWORD (RmReg (RExpr (call "quit"))) (RmiImm (call "big"))] 1 newD) = Stopped ImmRange.
Proof. exact case62_shown. Qed.
