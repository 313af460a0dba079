(** Which statements the macro reads but refuses to expand, and which of the
    mnemonics listed in README.md can be used. *)
From Verif Require Import Base ModelMem ModelSyntax ModelMacro ModelParse SpecX86 SpecAsm SpecState SpecGrammar ParseOk ParseStmt ParseFacts.
Local Open Scope string_scope. Local Open Scope list_scope. Local Open Scope Z_scope.

(** ** Spec *)
(** Operand combinations no x86-64 instruction has: two memory operands, an
    immediate as destination, lea of something that is not an address or into
    something that is not a register, an immediate into an xmm register. *)
Definition impossible (i : inst) : bool :=
  match i with
  | IMovq (MovInd _) (MovInd _) | IMovq (MovImm _ _) _ | IMovq (MovXmm _) (MovImm _ _) => true
  | IMovl (RmInd _) (RmiInd _) | IMovw (RmInd _) (RmiInd _) | IMovb (RmInd _) (RmiInd _) => true
  | IAdd _ (RmInd _) (RmiInd _) | ISub _ (RmInd _) (RmiInd _) | IAdc _ (RmInd _) (RmiInd _) | ISbb _ (RmInd _) (RmiInd _)
  | IAnd _ (RmInd _) (RmiInd _) | IOr _ (RmInd _) (RmiInd _) | IXor _ (RmInd _) (RmiInd _) | ICmp _ (RmInd _) (RmiInd _) => true
  | IXchg _ (RmInd _) (RmInd _) => true
  | IImul (RmiImm _) _ | IImul (RmiInd _) _ => true
  | ILea (RmInd _) _ | ILea _ (RmReg _) => true
  | IMovsd (XmInd _) (XmInd _) => true
  | _ => false
  end.
(** Statements with a meaning that the macro reads, but that do not compile. *)
Definition left_out (i : inst) : bool :=
  match i with
  | IXchg (DWORD | WORD | BYTE) _ _ => true                                  (* xchgl, xchgw, xchgb *)
  | IImul (RmiReg _) (RmiImm _) => true                                      (* imul reg, imm *)
  | IJmp (DestDisp _) => true                                                (* jmp (displacement) *)
  | IMovq (MovReg _) (MovImm _ (Some (DWORD | WORD | BYTE))) => true         (* movq reg, dword imm *)
  | IMovq (MovInd _) (MovImm _ (Some _)) => true                             (* movq mem, qword imm *)
  | IF64 b => 0x7ff0000000000000 <=? b                                       (* dq of a negative or infinite double *)
  | _ => false
  end.
(** README.md, "supported instructions", in order. *)
Definition readme : list string :=
  ["movq"; "lea"; "addq"; "orq"; "adcq"; "sbbq"; "andq"; "subq"; "xorq"; "cmpq"; "xchgq"; "negq"; "imul"; "idiv"; "div"; "cqo";
   "shlq"; "shrq"; "salq"; "sarq"; "rolq"; "rorq"; "testq"; "lzcntq"; "tzcntq"; "popcntq";
   "seteq"; "setne"; "setgt"; "setge"; "setlt"; "setle"; "seta"; "setae"; "setb"; "setbe";
   "movl"; "movsxl"; "addl"; "orl"; "adcl"; "sbbl"; "andl"; "subl"; "xorl"; "cmpl"; "xchgl";
   "movw"; "movzxw"; "movsxw"; "addw"; "orw"; "adcw"; "sbbw"; "andw"; "subw"; "xorw"; "cmpw"; "xchgw";
   "movb"; "movzxb"; "movsxb"; "addb"; "orb"; "adcb"; "sbbb"; "andb"; "subb"; "xorb"; "cmpb"; "xchgb"; "testb";
   "cmovbq"; "cmovaeq"; "cmoveqq"; "cmovneq"; "cmovbeq"; "cmovaq"; "cmovsq"; "cmovnsq"; "cmovltq"; "cmovgeq"; "cmovleq"; "cmovgtq";
   "movsd"; "addsd"; "subsd"; "mulsd"; "divsd"; "xorps"; "cvtsi2sdq"; "ucomisd"; "sqrtpd"; "sqrtsd";
   "pushq"; "popq"; "call"; "ret"; "jmp"; "jne"; "jeq"; "jgt"; "jge"; "jlt"; "jle"; "ja"; "jae"; "jb"; "jbe";
   "syscall"; "leave"; "int3"; "dq"].

(** ** Proofs *)
Lemma refused_inst i : spelled i <> [] -> (compile i = None <-> impossible i = true \/ left_out i = true).
Proof.
  intros H. destruct i; cbn [compile impossible left_out];
  try (unfold float_ok; rewrite Z.ltb_antisym; destruct (0x7ff0000000000000 <=? bits); cbn [negb]);
  repeat match goal with
  | |- context [binary_op ?s _ _ _ _] => destruct s; cbn [binary_op]
  | |- context [xchg ?s _ _] => destruct s; cbn [xchg]
  | |- context [shift_op ?s _ _ _] => destruct s; cbn [shift_op]
  | |- context [count_op ?s _ _ _] => destruct s; cbn [count_op]
  | |- context [match ?x with QWORD => _ | DWORD => _ | WORD => _ | BYTE => _ end] => destruct x
  end;
  repeat match goal with
  | x : rm_operand |- _ => destruct x
  | x : rmi_operand |- _ => destruct x
  | x : ri_operand |- _ => destruct x
  | x : xm_operand |- _ => destruct x
  | x : mov_operand |- _ => destruct x
  | x : dest |- _ => destruct x
  | x : option opsize |- _ => destruct x as [[]|]
  end; cbn; try (split; [intro; discriminate|intros [E|E]; discriminate]); try (split; auto; fail);
  exfalso; apply H; reflexivity.
Qed.
Lemma impossible_denote i val rel : impossible i = true -> denote val rel i = None.
Proof.
  destruct i; try discriminate; cbn [impossible denote];
  repeat match goal with
  | x : rm_operand |- _ => destruct x
  | x : rmi_operand |- _ => destruct x
  | x : xm_operand |- _ => destruct x
  | x : mov_operand |- _ => destruct x
  end; intro H; try discriminate H; reflexivity.
Qed.

Section Readme.
Variable is_expr : list tok -> bool.
Variable checks : bool.
Lemma parsed_spelled s ts i rest : p_inst is_expr checks (TIdent s :: ts) = Some (i, rest) -> hd_error ts <> Some (TPunct ":") -> In s (spelled i).
Proof.
  intros H Hc. apply inst_exact in H. destruct H as (w & E & G). destruct G as [x _|s' ws i' Hs _].
  - exfalso. cbn [app] in E. inversion E; subst. apply Hc. reflexivity.
  - cbn [app] in E. inversion E; subst. exact Hs.
Qed.
Lemma refused_text s ts i rest : p_inst is_expr checks (TIdent s :: ts) = Some (i, rest) -> hd_error ts <> Some (TPunct ":") ->
  (compile i = None <-> impossible i = true \/ left_out i = true).
Proof.
  intros H Hc. apply refused_inst. pose proof (parsed_spelled _ _ _ _ H Hc) as K. intro E. rewrite E in K. destruct K.
Qed.

Definition ops_of : list (list (list tok)) :=
  [[]; [[TIdent "rax"]]; [[TIdent "l"]]; [[TInt 5]]; [[TIdent "rax"]; [TIdent "rdx"]]; [[TIdent "rax"]; [TInt 5]]; [[TIdent "xmm3"]; [TIdent "xmm2"]];
   [[TIdent "xmm3"]; [TIdent "rdx"]]; [[TIdent "rax"]; [TGroup Bracket [TIdent "rdx"]]]].
Definition usable_with (s : string) (ws : list (list tok)) : bool :=
  match p_inst is_expr checks (TIdent s :: commas ws ++ [TPunct ";"]) with
  | Some (i, []) => match compile i with Some _ => true | None => false end
  | _ => false
  end.
Lemma readme_usable s : In s readme -> ~ In s ["xchgl"; "xchgw"; "xchgb"] ->
  exists ws i g, p_inst is_expr checks (TIdent s :: commas ws ++ [TPunct ";"]) = Some (i, []) /\ compile i = Some g.
Proof.
  intros Hs Hx.
  assert (H : forallb (fun s => existsb (String.eqb s) ["xchgl"; "xchgw"; "xchgb"] || existsb (usable_with s) ops_of) readme = true)
    by (vm_compute; reflexivity).
  rewrite forallb_forall in H. specialize (H s Hs). apply orb_true_iff in H. destruct H as [H|H].
  - exfalso. apply existsb_exists in H. destruct H as (x & Hi & E). apply String.eqb_eq in E. subst x. exact (Hx Hi).
  - apply existsb_exists in H. destruct H as (ws & _ & H). unfold usable_with in H. exists ws.
    destruct (p_inst is_expr checks _) as [[i [|]]|]; try discriminate. exists i.
    destruct (compile i) as [g|]; [|discriminate]. exists g. auto.
Qed.
Lemma readme_xchg s ts i rest : In s ["xchgl"; "xchgw"; "xchgb"] ->
  p_inst is_expr checks (TIdent s :: ts) = Some (i, rest) -> hd_error ts <> Some (TPunct ":") -> compile i = None.
Proof.
  intros Hs H Hc. pose proof (parsed_spelled _ _ _ _ H Hc) as K.
  assert (E : exists z a b, i = IXchg z a b /\ z <> QWORD).
  { cbn [In] in Hs. destruct Hs as [<-|[<-|[<-|[]]]]; clear -K; destruct i; try (cbn in K; repeat (destruct K as [K|K]; [discriminate K|]); destruct K; fail);
    repeat match goal with x : opsize |- _ => destruct x | x : cond |- _ => destruct x end; cbn in K; repeat (destruct K as [K|K]; [discriminate K|]);
    try destruct K; eexists _, _, _; split; try reflexivity; congruence. }
  destruct E as (z & a & b & -> & Hz). destruct z; [congruence| | |]; reflexivity.
Qed.
End Readme.
Lemma readme_refuted : exists s, In s readme /\ forall is_expr checks ts i rest,
  p_inst is_expr checks (TIdent s :: ts) = Some (i, rest) -> hd_error ts <> Some (TPunct ":") -> compile i = None.
Proof.
  exists "xchgl". split; [|intros; eapply readme_xchg; [left; reflexivity|eassumption|assumption]].
  assert (H : existsb (String.eqb "xchgl") readme = true) by reflexivity.
  apply existsb_exists in H. destruct H as (x & Hx & E). apply String.eqb_eq in E. rewrite E. exact Hx.
Qed.
Lemma refused_case : p_inst any_expr true [TIdent "imul"; TIdent "rax"; TPunct ","; TInt 5; TPunct ";"] = Some (IImul (RmiReg (RReg 0)) (RmiImm (ELit 5)), []) /\
  left_out (IImul (RmiReg (RReg 0)) (RmiImm (ELit 5))) = true /\
  p_inst any_expr true [TIdent "addq"; TGroup Bracket [TIdent "rax"]; TPunct ","; TGroup Bracket [TIdent "rdi"]; TPunct ";"] =
    Some (IAdd QWORD (RmInd (mkInd (RReg 0) PScaleNone (PImm 0))) (RmiInd (mkInd (RReg 7) PScaleNone (PImm 0))), []) /\
  compile (IImul (RmiReg (RReg 0)) (RmiReg (RReg 1))) <> None.
Proof. split; [reflexivity|]. split; [reflexivity|]. split; [reflexivity|discriminate]. Qed.
Lemma readme_in : In "cmovgtq" readme /\ ~ In "cmovgtq" ["xchgl"; "xchgw"; "xchgb"].
Proof.
  split; [|intros [H|[H|[H|[]]]]; discriminate].
  assert (H : existsb (String.eqb "cmovgtq") readme = true) by reflexivity.
  apply existsb_exists in H. destruct H as (x & Hx & E). apply String.eqb_eq in E. rewrite E. exact Hx.
Qed.
