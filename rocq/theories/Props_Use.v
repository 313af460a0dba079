(** Property C57: expressions that use the assembler they assemble with.  [ev ts r (w, s)] is the value
    of an expression in the variables [r], the caller's state [w] and the assembler [s], and both
    afterwards; [u_block] (ModelUse) runs the expansion of a block. *)
From Verif Require Import Base ModelMem ModelSyntax ModelMacro ModelEff ModelUse SpecX86 SpecAsm SpecState SpecHist MemDemo SpecProg ProgDemo SpecEff EffDemo SpecLeave SpecUse UseFacts UseBlock UseDemo.
Local Open Scope list_scope.
Local Open Scope Z_scope.

(** ** C57.  An expression that reads the assembler sees it as the statements before left it.
    False in general: the guard leaves out instructions with a prefix. *)
Theorem C57_partial : forall W ev lenv body r w s, Forall (fun i => prefix_of i = None) body -> e_compile_all body <> None ->
  u_block W (reading ev) lenv r body w s = seen_before ev lenv r body w s.
Proof. exact block_reads. Qed.
Print Assumptions C57_partial.
(** Expressions that change it (immediates and conditions; rustc allows no others): all that the expressions of a statement emit comes before the
    statement, which is assembled with their values. *)
Theorem C57_write_partial : forall W ev lenv body r w s ev' q, Forall (fun i => evaluated_once i /\ prefix_of i = None) body -> e_compile_all body <> None ->
  match u_block W ev lenv r body w s with
  | EOk _ _ w1 s1 => values_first W ev lenv ev' q r body (w, s) = Ok (w1, s1) s1
  | EFail _ e _ _ => exists s1, values_first W ev lenv ev' q r body (w, s) = Panic e s1
  end.
Proof. exact block_use. Qed.
Print Assumptions C57_write_partial.
(** In every block: if the expressions change the assembler by calls only, it is in a state reached
    by calls afterwards, for which all other properties hold (unless the page is full). *)
Theorem C57_reached : forall W ev lenv, (forall ts r w s, reached s -> reached (snd (snd (ev ts r (w, s))))) ->
  forall body r (w : W) s, reached s -> e_compile_all body <> None ->
  match u_block W ev lenv r body w s with
  | EOk _ _ _ s1 => reached s1
  | EFail _ e _ s1 => e <> PageOverflow -> reached s1
  end.
Proof. exact use_block_reached. Qed.
Print Assumptions C57_reached.
(** The claims without the guard are false: addw [rax + (pos())], rcx at the start of the page adds to
    [rax + 1], as the prefix is emitted before pos() is evaluated. *)
Theorem C57_refuted : exists W ev lenv r body w s r1 w1 s1 r2 w2 s2, reached s /\ Forall evaluated_once body /\
  u_block W (reading ev) lenv r body w s = EOk W r1 w1 s1 /\ seen_before ev lenv r body w s = EOk W r2 w2 s2 /\ bytes s1 P0 0 4 <> bytes s2 P0 0 4.
Proof. exact sees_prefix. Qed.
Print Assumptions C57_refuted.
(** movl rcx, (pos()); movl rdx, (pos()); ret    where pos() is the position on the page *)
Example C57_case_read : Forall (fun i => prefix_of i = None) progV /\
  bytes (final (u_block Z (reading evR) lenvD rD progV 1 newD)) P0 0 11 = [0xb9; 0; 0; 0; 0;  0xba; 5; 0; 0; 0;  0xc3].
Proof. exact case57_read. Qed.
(** movq rax, (here()); addl rbx, (skip()); movl rcx, (pos()); ret    where here() is
    jit.get_current_address() and skip() emits the byte 90 and gives 5 *)
Example C57_case : Forall (fun i => evaluated_once i /\ prefix_of i = None) progU /\ (exists q, runU progU = EOk Z q 1 (final (runU progU))) /\
  bytes (final (runU progU)) P0 0 20 = [0x48; 0xb8; 0; 0; 1; 0; 0; 0; 0; 0;  0x90; 0x83; 0xc3; 5;  0xb9; 14; 0; 0; 0;  0xc3].
Proof. exact case57. Qed.
