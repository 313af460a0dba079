(** Property C53: expressions with side effects, which the other properties leave out.
    [W] is the caller's state, [ev ts r w] the value of an expression in the variables [r] and
    the state after it; [e_block] (ModelEff) runs the expansion of a block on [w] and the
    assembler [s].  [v_body ev r body w] (SpecEff) evaluates each expression of a block once:
    it is the block with the values in place of the expressions, and the caller's state then. *)
From Verif Require Import Base ModelMem ModelSyntax ModelMacro ModelEff SpecX86 SpecAsm SpecTaken SpecState SpecHist MemDemo SpecProg ProgDemo SpecScope SpecEff EffFacts EffPure EffDemo.
From Coq Require Import Permutation.
Local Open Scope Z_scope.

(** ** C53.  A block assembles the instructions with the values of its expressions, each evaluated
    once.  False in general: the guard leaves out four forms (see C53_refuted). *)
Theorem C53_partial : forall W ev lenv r body w s, Forall evaluated_once body -> e_compile_all body <> None ->
  let '(body', w') := v_body W ev r body w in
  Forall (fun i => Forall literal (stmt_exprs i)) body' /\
  forall ev' q, match e_block W ev lenv r body w s with
    | EOk _ _ w1 s1 => step (OAsm ev' lenv q body') s = Ok None s1 /\ w1 = w'
    | EFail _ e _ s1 => step (OAsm ev' lenv q body') s = Panic e s1
    end.
Proof. exact block_values. Qed.
Print Assumptions C53_partial.
(** What is evaluated, counted. *)
Theorem C53_once_partial : forall ev lenv r body s q trace s1, Forall evaluated_once body ->
  e_block _ (recording ev) lenv r body [] s = EOk _ q trace s1 -> Permutation trace (flat_map written body).
Proof. exact block_trace. Qed.
Print Assumptions C53_once_partial.
(** In every block: all expressions are evaluated, and no others. *)
Theorem C53_all : forall ev lenv r body s q trace s1,
  e_block _ (recording ev) lenv r body [] s = EOk _ q trace s1 -> forall ts, In ts trace <-> In ts (flat_map written body).
Proof. exact block_used. Qed.
Print Assumptions C53_all.
(** Expressions without effects: any block does what ModelMacro says, and [v_body] is the
    frozen block of C52. *)
Theorem C53_pure : forall W ev ev0, (forall ts r w, ev ts r w = (ev0 ts r, w)) -> forall lenv r body (w : W) s,
  match e_block W ev lenv r body w s with
  | EOk _ _ w1 s1 => step (OAsm ev0 lenv r body) s = Ok None s1 /\ w1 = w
  | EFail _ e w1 s1 => step (OAsm ev0 lenv r body) s = Panic e s1 /\ w1 = w
  end.
Proof. exact block_pure. Qed.
Print Assumptions C53_pure.
Theorem C53_frozen : forall W ev ev0, (forall ts r w, ev ts r w = (ev0 ts r, w)) -> forall body r (w : W),
  compile_all body <> None -> v_body W ev r body w = (frozen ev0 r body, w).
Proof. exact pure_body. Qed.
Print Assumptions C53_frozen.
(** The claim without the guard is false: movq R(a()), 5 evaluates a() twice, and with a counter
    the code is for another register than the first value. *)
Theorem C53_refuted : exists ev lenv r i s q trace s1, e_block _ (recording ev) lenv r [i] [] s = EOk _ q trace s1 /\ ~ Permutation trace (written i).
Proof. exact more_than_once. Qed.
Print Assumptions C53_refuted.
Theorem C53_code_refuted : exists W ev lenv r body w s q w1 s1, reached s /\ e_block W ev lenv r body w s = EOk W q w1 s1 /\
  forall ev' r', step (OAsm ev' lenv r' (fst (v_body W ev r body w))) s <> Ok None s1.
Proof. exact other_code. Qed.
Print Assumptions C53_code_refuted.
(** A block that panics may evaluate an expression again, for the text of the panic: xorb rcx, (a()). *)
Theorem C53_panic_refuted : exists ev lenv r i ts s w1 s1, evaluated_once i /\ written i = [ts] /\
  e_block _ (recording ev) lenv r [i] [] s = EFail _ ImmRange w1 s1 /\ w1 = [ts; ts].
Proof. exact panic_twice. Qed.
Print Assumptions C53_panic_refuted.
(** a() = 300, b() = c() = 2^40: xorb R(c()), (a()); movb R(c()), (a()); movl R(c()), (b()); movw R(c()), (b()); call (b());
    xorl R(c()), (b()), whose text shows the value it has. *)
Example C53_shown : map said_trace said_twice = [Some (ImmRange, [toks "a"; toks "a"]); Some (ImmRange, [toks "a"; toks "c"]); Some (ImmRange, [toks "b"; toks "c"]);
  Some (ImmRange, [toks "b"; toks "c"]); Some (ImmRange, [toks "b"; toks "b"]); Some (ImmRange, [toks "b"])].
Proof. exact said_traces. Qed.
(** The four forms: movq, testq, testb of R(a()) and an immediate; xchg R(a()), R(b()). *)
Example C53_forms : map trace twice =
  [Some [toks "a"; toks "a"]; Some [toks "a"; toks "a"]; Some [toks "a"; toks "a"]; Some [toks "a"; toks "b"; toks "b"; toks "a"]].
Proof. exact traces. Qed.
(** addq R(next()), (next()); movq [R(next()) + (next())], R(next()); ret  counting from 5. *)
Example C53_case : Forall evaluated_once progN /\ (exists q, runN progN 5 = EOk Z q 10 (final (runN progN 5))) /\
  v_body Z evN rD progN 5 = ([IAdd QWORD (RmReg (RExpr (ELit 6))) (RmiImm (ELit 5));
    IMovq (MovInd (mkInd (RExpr (ELit 8)) PScaleNone (PExpr false (ELit 9)))) (MovReg (RExpr (ELit 7))); IRet], 10) /\
  bytes (final (runN progN 5)) P0 0 9 = [0x48; 0x83; 0xc6; 5;  0x49; 0x89; 0x78; 9;  0xc3].
Proof. exact case53. Qed.
