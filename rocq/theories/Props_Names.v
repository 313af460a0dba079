(** Property C66: the scope of the expansion with all its names and types, and what of C52 is false.
    [n_macro] (ModelNames) is the expansion where the caller's variables [r] have any names and types; [base] gives the
    assembler.  [ends x w y]: a block whose expressions have no effects ended as [y], the caller's state being [w]. *)
From Verif Require Import Base ModelMem ModelEnc ModelSyntax ModelMacro ModelEff ModelLeave ModelFlow ModelNames SpecX86 SpecAsm SpecTaken SpecState SpecHist MemDemo SpecProg SpecScope SpecNames NamesFacts NamesLabels NamesTie NamesDemo.
Local Open Scope list_scope.
Local Open Scope Z_scope.

(** ** C66.  A block is the block of the values its expressions have in the scope [n_frozen] describes, in every state. *)
Theorem C66 : forall W pev lenv evb base r body (w : W), compile_all body <> None -> labels_visible ["jit"%string] body ->
  let r1 := n_set "jit" VJit r in let '(w1, s) := evb base r w in
  Forall (fun i => Forall literal (stmt_exprs i)) (n_frozen pev r1 body) /\
  exists x, n_macro W (fun ts r y => (Some (pev ts r), y)) lenv evb base r body w = Some x /\
    forall ev' q, ends x w1 (step (OAsm ev' lenv q (n_frozen pev r1 body)) s).
Proof. exact (fun W pev lenv evb base r body w H L => names_frozen W pev lenv evb base r body w (proj2 (labels_names _ body) (conj H L))). Qed.
Print Assumptions C66.
(** In that scope every name but five is the caller's. *)
Theorem C66_others : forall pev x, ~ In x taken -> forall i r, n_after pev r i x = r x /\ n_inner pev r i x = r x.
Proof. exact other_names. Qed.
Print Assumptions C66_others.
(** A program compiles exactly if its statements do and no label has a name that the expansion has declared there. *)
Theorem C66_labels : forall W ev lenv evb base r body (w : W),
  n_macro W ev lenv evb base r body w <> None <-> compile_all body <> None /\ labels_visible ["jit"%string] body.
Proof. exact macro_labels. Qed.
Print Assumptions C66_labels.
(** Expressions that mention none of the five have the values they have where the block is written. *)
Theorem C66_own : forall W pev lenv evb base r body (w : W), compile_all body <> None -> labels_visible ["jit"%string] body ->
  Forall (fun i => Forall (fun e => mentions_none (fun r => nval pev r e)) (stmt_exprs i)) body ->
  let '(w1, s) := evb base r w in exists x, n_macro W (fun ts r y => (Some (pev ts r), y)) lenv evb base r body w = Some x /\
    forall ev' q, ends x w1 (step (OAsm ev' lenv q (map (fz_inst (nval pev r) (nval pev r)) body)) s).
Proof. exact (fun W pev lenv evb base r body w H L => names_own W pev lenv evb base r body w (proj2 (labels_names _ body) (conj H L))). Qed.
Print Assumptions C66_own.
(** If they mention none but jit and imm, and use of imm the number only, the block is that of ModelMacro, and with
    effects, calls of jit and leaving that of ModelFlow: C25 to C65 hold of it. *)
Theorem C66_asm : forall W pev lenv evb base r body (w : W), compile_all body <> None -> labels_visible ["jit"%string] body ->
  Forall (fun i => Forall (fun e => mentions_no_rm (fun r => nval pev r e)) (stmt_exprs i)) body ->
  let r1 := n_set "jit" VJit r in let '(w1, s) := evb base r w in
  exists x, n_macro W (fun ts r y => (Some (pev ts r), y)) lenv evb base r body w = Some x /\
    ends x w1 (step (OAsm (fun ts q => pev ts (only_imm r1 q)) lenv (ints r1) body) s).
Proof. exact (fun W pev lenv evb base r body w H L => names_asm W pev lenv evb base r body w (proj2 (labels_names _ body) (conj H L))). Qed.
Print Assumptions C66_asm.
Theorem C66_flow : forall W ev lenv evb base r body (w : W), compile_all body <> None -> labels_visible ["jit"%string] body ->
  Forall (fun i => Forall (fun e => forall y, mentions_no_rm (fun r => n_eval W ev r e y)) (stmt_exprs i)) body ->
  let r1 := n_set "jit" VJit r in let '(w1, s) := evb base r w in
  exists x, n_macro W ev lenv evb base r body w = Some x /\ ends_as x (f_block W (fun ts q => ev ts (only_imm r1 q)) lenv (ints r1) body w1 s).
Proof. exact (fun W ev lenv evb base r body w H L => names_flow W ev lenv evb base r body w (proj2 (labels_names _ body) (conj H L))). Qed.
Print Assumptions C66_flow.
(** C52 says that imm, an i64, is the only name taken.  That is false: shlq [rax + (imm * 100)], (n)  with n = 3 has
    displacement 44, since imm is an i8 there. *)
Theorem C52_refuted : exists pev r body s x, n_macro unit (fun ts r y => (Some (pev ts r), y)) lenvD (fun _ _ _ => (tt, s)) [] r body tt = Some x /\
  ~ ends x tt (step (OAsm evD lenvD rD (i_frozen pev r body)) s).
Proof. exact narrow_refuted. Qed.
Print Assumptions C52_refuted.
(** addq rax, (size(imm)); movq rbx, (size(jit)); movq rbx, (size(rm_op)); movq rdx, xmm1; addq rax, (size(op1)); movq xmm1, rdx;
    addq rax, (size(op2)); shlq [rax + (imm * 100)], (n); addq rax, (imm), and what C52 says of it. *)
Example C66_case : compile_all progN <> None /\ labels_visible ["jit"%string] progN /\
  n_frozen evN (n_set "jit" VJit rN) progN = litN [2; 1; 24; 24; 24; 44; 3] /\
  i_frozen evN rN progN = litN [2; 7; 8; 8; 8; 300; 3].
Proof. exact case66. Qed.
(** jmp imm; addq rax, 1  and  addq rax, 1; jmp imm *)
Example C66_labels_case : let add := IAdd QWORD (RmReg (RReg 0)) (RmiImm (ELit 1)) in
  labels_visible ["jit"%string] [IJmp (DestRel "imm"); add] /\ ~ labels_visible ["jit"%string] [add; IJmp (DestRel "imm")].
Proof. exact labels66. Qed.
(** movq rax, (jit.get_current() + imm), where the caller's jit is another object and imm = 70; the block's is at 3. *)
Example C66_flow_case : Forall (fun i => Forall (fun e => forall y, mentions_no_rm (fun r => n_eval unit evF r e y)) (stmt_exprs i)) progF /\
  match n_macro unit evF lenvD (fun _ _ _ => (tt, s3)) [] rN progF tt with Some x => viewx x | None => [] end = [0xc3; 0xc3; 0xc3; 0x48; 0xb8; 73; 0; 0].
Proof. exact flow66. Qed.
(** addq rax, (n) where n = 3; addq rax, (imm); addq rax, (n); addq rax, (imm) where imm is 70 before. *)
Example C66_own_case : Forall (fun i => Forall (fun e => mentions_none (fun r => nval evN r e)) (stmt_exprs i)) [addN "n"] /\
  map (fz_inst (nval evN rN) (nval evN rN)) [addN "n"] = [IAdd QWORD (RmReg (RReg 0)) (RmiImm (ELit 3))].
Proof. exact own66. Qed.
Example C66_asm_case : Forall (fun i => Forall (fun e => mentions_no_rm (fun r => nval evN r e)) (stmt_exprs i)) [addN "n"; addN "imm"] /\
  let r1 := n_set "jit" VJit rN in frozen (fun ts q => evN ts (only_imm r1 q)) (ints r1) [addN "imm"; addN "n"; addN "imm"] = map (fun k => IAdd QWORD (RmReg (RReg 0)) (RmiImm (ELit k))) [70; 3; 3].
Proof. exact asm66. Qed.
