(** Concrete statements with operands the machine does not have, for C47. *)
From Verif Require Import Base ModelMem ModelEnc ModelSyntax ModelMacro ModelParse SpecX86 SpecAsm SpecTaken SpecState StateFid FidelityInst EncFacts EncRefute TakenFacts ParseScale.

Lemma taken_ordinary ev r i : ordinary ev r i -> is_cvttsd2siq i = false ->
  assembled (eval ev r) (fun _ => 0) i = denote (eval ev r) (fun _ => 0) i.
Proof.
  intros (Hi & Hw & _) Hc. transitivity (denote (eval ev r) (fun _ => 0) (taken (eval ev r) i)); [destruct i; try reflexivity; discriminate Hc|].
  apply denote_taken, wf_written, Hw.
Qed.
Lemma taken_scales is_expr checks ts is i : p_stmts is_expr checks ts = Some is -> In i is -> scales_written i.
Proof. intros H Hi. pose proof (parsed_scales is_expr checks ts is H) as F. rewrite Forall_forall in F. exact (F i Hi). Qed.

(** movq R(25), [R(266) + R(260)*8 + (0x1_0000_0010)]: assembled as movq r9, [r10 + 16] *)
Definition i_odd : inst :=
  IMovq (MovReg (RExpr (lit 25))) (MovInd (mkInd (RExpr (lit 266)) (PS1 3 (RExpr (lit 260))) (PExpr false (lit 4294967312)))).
Definition i_even : inst :=
  IMovq (MovReg (RReg 9)) (MovInd (mkInd (RReg 10) PScaleNone (PImm 16))).
(** movq rax, [rip + rcx]: refused *)
Definition i_rip_index : inst := IMovq (MovReg (RReg 0)) (MovInd (mkInd (RReg 16) (PS1 0 (RReg 1)) (PImm 0))).
(** addq rip, rax: refused *)
Definition i_add_rip : inst := IAdd QWORD (RmReg (RReg 16)) (RmiReg (RReg 0)).
Definition a0 (i : inst) := assembled (eval ev0 r0) (fun _ => 0) i.
Lemma scales_odd : scales_written i_odd.
Proof. repeat constructor; discriminate. Qed.
