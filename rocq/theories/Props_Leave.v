(** Property C55: blocks left by one of their expressions.  The value of an expression may be
    missing ([ev] gives None): it leaves the block by [?], [return], [break] or a panic of its own.
    [l_block] (ModelLeave) runs the expansion of a block until then.  [staying ev] agrees with [ev]
    where it gives a value, and [e_block] is the run of C53. *)
From Verif Require Import Base ModelMem ModelSyntax ModelMacro ModelEff ModelLeave SpecX86 SpecAsm SpecState SpecHist MemDemo SpecProg ProgDemo EffDemo SpecLeave LeaveBlock LeaveReach LeaveDemo.
Local Open Scope list_scope.
Local Open Scope Z_scope.

(** ** C55.  A block that is left leaves the assembler as the statements before the one that is
    left made it.  False in general: the guard leaves out instructions with a prefix. *)
Theorem C55_partial : forall W ev lenv body r w s w' s', Forall (fun i => prefix_of i = None) body ->
  l_block W ev lenv r body w s = LLeft W w' s' ->
  exists done i rest r1 w1, body = done ++ i :: rest /\ e_block W (staying ev) lenv r done w s = EOk W r1 w1 s'.
Proof. exact block_left_clean. Qed.
Print Assumptions C55_partial.
(** In every block: of the statement that is left there is nothing, or its prefix, or (the mode of
    roundpd) all but its last byte. *)
Theorem C55_all : forall W ev lenv body r w s w' s', l_block W ev lenv r body w s = LLeft W w' s' ->
  exists done i rest r1 w1 s1, body = done ++ i :: rest /\ e_block W (staying ev) lenv r done w s = EOk W r1 w1 s1 /\ left_by lenv i s1 s'.
Proof. exact block_left. Qed.
Print Assumptions C55_all.
(** Whatever the expressions do, the assembler is in a state reached by calls, for which all other
    properties hold (unless the page is full). *)
Theorem C55_reached : forall W ev lenv body r w s, reached s -> e_compile_all body <> None ->
  match l_block W ev lenv r body w s with
  | LOk _ _ _ s' | LLeft _ _ s' => reached s'
  | LFail _ e _ s' => e <> PageOverflow -> reached s'
  end.
Proof. exact block_reached. Qed.
Print Assumptions C55_reached.
(** A block that is not left does as C53 says. *)
Theorem C55_stays : forall W ev lenv r body w s,
  match l_block W ev lenv r body w s with
  | LOk _ r1 w1 s1 => e_block W (staying ev) lenv r body w s = EOk W r1 w1 s1
  | LFail _ e w1 s1 => e_block W (staying ev) lenv r body w s = EFail W e w1 s1
  | LLeft _ _ _ => True
  end.
Proof. exact block_stays. Qed.
Print Assumptions C55_stays.
(** The caller's state is the one the expression left it in, and nothing is evaluated after it. *)
Theorem C55_world : forall W ev lenv r body w s w' s', l_block W ev lenv r body w s = LLeft W w' s' -> exists ts q w0, ev ts q w0 = (None, w').
Proof. exact left_world. Qed.
Print Assumptions C55_world.
Theorem C55_evaluated : forall ev lenv r body s trace s', l_block _ (recorded ev) lenv r body [] s = LLeft _ trace s' ->
  exists before ts, trace = before ++ [ts] /\ (exists q, ev ts q = None) /\ Forall (fun t => exists q, ev t q <> None) before.
Proof. exact left_trace. Qed.
Print Assumptions C55_evaluated.
(** The claim without the guard is false: addsd xmm(stop()?), xmm1 leaves the byte f2 behind. *)
Theorem C55_refuted : exists W ev lenv r body w s w' s', reached s /\ l_block W ev lenv r body w s = LLeft W w' s' /\
  forall done rest r1 w1 s1, body = done ++ rest -> e_block W (staying ev) lenv r done w s = EOk W r1 w1 s1 -> s1 <> s'.
Proof. exact stray_prefix. Qed.
Print Assumptions C55_refuted.
(** And it changes what is assembled next: after movw R(stop()?), rcx, movl rax, rbx is movw ax, bx. *)
Theorem C55_next_refuted : exists W ev lenv r body w s w' s' ev' r' s2, reached s /\ l_block W ev lenv r body w s = LLeft W w' s' /\
  step (OAsm ev' lenv r' [IMovl (RmReg (RReg 0)) (RmiReg (RReg 3))]) s' = Ok None s2 /\ counter (pages s P0) = 0 /\ cur s = P0 /\
  forall rest, decode (bytes s2 P0 0 3 ++ rest) = Some (mkIns Mov W16 [OReg W16 0; OReg W16 3], rest).
Proof. exact next_changed. Qed.
Print Assumptions C55_next_refuted.
(** addq R(next()), (next()); movq [R(next()) + (stop())], R(next()); ret  counting from 5: the code
    of addq is there and nothing of movq; with addsd xmm(stop()), xmm1 in place of movq its prefix;
    of roundpd xmm(next()), xmm(next()), (stop()) all but the last byte. *)
Example C55_case : Forall (fun i => prefix_of i = None) progM /\ runL progM 5 = LLeft Z 9 (lfinal (runL progM 5)) /\
  bytes (lfinal (runL progM 5)) P0 0 5 = [0x48; 0x83; 0xc6; 5; 0xcc] /\ counter (pages (lfinal (runL progM 5)) P0) = 4.
Proof. exact case55_clean. Qed.
Example C55_case_prefix : runL progS 5 = LLeft Z 7 (lfinal (runL progS 5)) /\ bytes (lfinal (runL progS 5)) P0 0 6 = [0x48; 0x83; 0xc6; 5; 0xf2; 0xcc] /\
  counter (pages (lfinal (runL progS 5)) P0) = 5.
Proof. exact case55. Qed.
Example C55_case_mode : runL progR 1 = LLeft Z 3 (lfinal (runL progR 1)) /\ bytes (lfinal (runL progR 1)) P0 0 6 = [0x66; 0x0f; 0x3a; 0x09; 0xca; 0xcc] /\
  counter (pages (lfinal (runL progR 1)) P0) = 5.
Proof. exact case55_mode. Qed.
