(** Property C52 as far as it is true (Props_Names refutes it for variables of other types): expressions that mention a variable imm, which C25, C31 and C48 leave out.
    [frozen ev r body] (SpecScope) is the block with each expression replaced by its value: an
    immediate in the variables before its statement, any other operand in those after it; a
    statement with an immediate defines imm as that immediate.  [ev], [lenv], [r] and [s] are
    as in Props_Prog. *)
From Verif Require Import Base ModelMem ModelEnc ModelSyntax ModelMacro SpecX86 SpecAsm SpecTaken SpecState SpecHist MemDemo SpecProg ProgDemo SpecMachine SpecCpu SpecScope ScopeFacts ScopeBlock ScopeDemo.
Local Open Scope Z_scope.

(** ** C52, where variables are integers and imm is the only name of the expansion that is mentioned.  A block, whatever its expressions mention, is its frozen block, wherever that is
    written: the same bytes, labels and panics in every state. *)
Theorem C52_partial : forall ev lenv r body, Forall (fun i => Forall literal (stmt_exprs i)) (frozen ev r body) /\
  forall ev' r' s, step (OAsm ev lenv r body) s = step (OAsm ev' lenv r' (frozen ev r body)) s.
Proof. exact (fun ev lenv r body => conj (frozen_literal ev body r) (fun ev' r' s => block_frozen ev ev' lenv r r' body s)). Qed.
Print Assumptions C52_partial.
(** A block is its first part and then its second, in the variables the first leaves. *)
Theorem C52_two : forall ev lenv r a b s, compile_all (a ++ b) <> None ->
  step (OAsm ev lenv r (a ++ b)) s = bind (step (OAsm ev lenv r a)) (fun _ => step (OAsm ev lenv (scope_after_all ev r a) b)) s.
Proof. exact block_two. Qed.
Print Assumptions C52_two.
(** Without imm in its expressions, a block has the values of the variables where it is written,
    and freezing an instruction changes nothing of its meaning. *)
Theorem C52_blind : forall ev r body, Forall (fun i => Forall (imm_blind ev r) (stmt_exprs i)) body ->
  frozen ev r body = map (fz_inst (eval ev r) (eval ev r)) body.
Proof. exact frozen_blind. Qed.
Print Assumptions C52_blind.
Theorem C52_means : forall ev r ev' r' rel i, let v := eval ev r in
  denote (eval ev' r') rel (fz_inst v v i) = denote v rel i /\ as_linked (eval ev' r') rel (fz_inst v v i) = as_linked v rel i.
Proof. exact frozen_means. Qed.
Print Assumptions C52_means.
(** After linking, the processor does what the frozen statements say. *)
Theorem C52_cpu : forall ev lenv r body s o s1 ops s4 target,
  reached s -> typed ev r body -> step (OAsm ev lenv r body) s = Ok o s1 -> forallb api ops = true -> run ops s1 = Some s4 ->
  (forall x, In x (body_labels body) -> linked ops s1 (lenv x) = Some (target x)) -> own_labels lenv body s ops ->
  let mean := as_linked (eval ev r) in let body' := frozen ev r body in
  exists marks, listing mean target s4 (cur s) marks body' /\ hd_error marks = Some (cursor s) /\ last marks 0 = cursor s1 /\
    (forall j x a, nth_error body' j = Some (ILabel x) -> linked ops s1 (lenv x) = Some a -> a = addr s4 (cur s) (nth j marks 0)) /\
    forall n k st, (k <= List.length body')%nat ->
      keeps_code (mem s4) (addr s4 (cur s) (cursor s)) (addr s4 (cur s) (cursor s1)) mean target (fun k => addr s4 (cur s) (nth k marks 0)) body' n k st ->
      same_cpu mean target (fun k => addr s4 (cur s) (nth k marks 0)) body' n k st.
Proof. exact scoped_cpu. Qed.
Print Assumptions C52_cpu.
Theorem C52_runs : forall mstate sem ev lenv r body s o s1 ops s4 target,
  (forall x y next st, same_ins x y -> sem x next st = sem y next st) ->
  reached s -> typed ev r body -> step (OAsm ev lenv r body) s = Ok o s1 -> forallb api ops = true -> run ops s1 = Some s4 ->
  (forall x, In x (body_labels body) -> linked ops s1 (lenv x) = Some (target x)) -> own_labels lenv body s ops ->
  let mean := as_linked (eval ev r) in let body' := frozen ev r body in
  exists marks, listing mean target s4 (cur s) marks body' /\ hd_error marks = Some (cursor s) /\ last marks 0 = cursor s1 /\
    forall n k st, (k <= List.length body')%nat ->
      same_run mstate sem mean target (fun k => addr s4 (cur s) (nth k marks 0)) body' (mem s4) n k st.
Proof. exact scoped_runs. Qed.
Print Assumptions C52_runs.
(** A block that fits and whose labels exist is assembled exactly if its frozen statements are,
    as taken, labels, data or x86 instructions. *)
Theorem C52_accepted : forall ev lenv r body s,
  typed ev r body -> compile_all body <> None -> cursor s + 15 * Z.of_nat (List.length body) <= PAGE_SIZE ->
  (forall x, In x (body_labels body) \/ In x (defined body) -> (lenv x < List.length (labels s))%nat) ->
  ((exists s1, step (OAsm ev lenv r body) s = Ok None s1) <-> Forall (taken_as_ins (eval ev r)) (frozen ev r body)).
Proof. exact scoped_accepted. Qed.
Print Assumptions C52_accepted.
(** movq rax, 5; movq rbx, (imm); movq [R(imm)], 2; movl R(imm), [rax + (imm)]; ret  where imm = 3. *)
Example C52_case : typed evI rI progI /\ step (OAsm evI lenvD rI progI) newD = Ok None sI /\
  frozen evI rI progI = [IMovq (MovReg (RReg 0)) (MovImm (ELit 5) None); IMovq (MovReg (RReg 3)) (MovImm (ELit 5) None);
    IMovq (MovInd (at_imm (PImm 0) (RExpr (ELit 2)))) (MovImm (ELit 2) None);
    IMovl (RmReg (RExpr (ELit 2))) (RmiInd (at_imm (PExpr false (ELit 2)) (RReg 0))); IRet] /\
  bytes sI P0 0 31 = [0x48; 0xb8; 5; 0; 0; 0; 0; 0; 0; 0;  0x48; 0xbb; 5; 0; 0; 0; 0; 0; 0; 0;  0x48; 0xc7; 2; 2; 0; 0; 0;  0x8b; 0x50; 2;  0xc3].
Proof. exact case52. Qed.
