(** The machine instructions of the README's virtual machine. *)
From Verif Require Import Base ModelMem ModelEnc ModelSyntax ModelMacro SpecX86 SpecAsm SpecTaken SpecState SpecHist
  MemRun SpecProg SpecMachine SpecCpu SpecScope ModelParse DemoText Fibo SpecVm VmCode VmPlace PosFacts.
Local Notation length := List.length.
Local Open Scope string_scope.
Local Open Scope list_scope.
Local Open Scope Z_scope.

Definition vreg (k : Z) : operand := OReg W64 (k + 12).
Definition gr (k : Z) : operand := OReg W64 k.
Definition slot (o : Z) : operand := OMem (mkMem (Some (BReg 5)) None (- o)).
Definition op2 (m : mnem) (a b : operand) : Z -> ins := fun _ => mkIns m W64 [a; b].
Definition op1 (m : mnem) (a : operand) : Z -> ins := fun _ => mkIns m W64 [a].
Definition vm_ins (i : vmi) (T : label -> Z) : list (Z -> ins) :=
  match i with
  | VInt k v => [op2 Mov (vreg k) (OImm (i64 (u64 v)))]
  | VGet k o => [op2 Mov (vreg k) (slot o)]
  | VSet k o => [op2 Mov (slot o) (vreg k)]
  | VSub d s => [op2 (Alu SUB) (vreg d) (vreg s)]
  | VAdd d s => [op2 (Alu ADD) (vreg d) (vreg s)]
  | VCmp d s => [op2 (Alu CMP) (vreg d) (vreg s)]
  | VJne l => [fun next => mkIns (Jcc 5) W64 [ORel (T l - next)]]
  | VJmp l => [fun next => mkIns Jmp W64 [ORel (T l - next)]]
  | VMark _ => []
  | VCall f a r => [op2 Mov (gr 7) (vreg a); (fun next => mkIns Call W64 [ORel (T f - next)]); op2 Mov (vreg r) (gr 0)]
  | VConst v => [op2 Mov (gr 0) (OImm (i64 v))]
  | VResult k => [op2 Mov (gr 0) (vreg k)]
  | VPuts k p => [op2 Mov (gr 7) (vreg k); op2 Mov (gr 0) (OImm (i64 (u64 p))); op1 Call (gr 0)]
  end.
Definition vm_refs (i : vmi) : list label := match i with VJne l | VJmp l => [l] | VCall f _ _ => [f] | _ => [] end.
Definition vm_mark (i : vmi) : option label := match i with VMark l => Some l | _ => None end.
Definition vm_item (i : vmi) : item := mkItem (vm_op i) (vm_mark i) (vm_refs i) (vm_ins i).

Lemma d_taken ev r n : 0 <= n < 16 -> d_reg (eval ev r) W64 (taken_reg (eval ev r) (RExpr (ELit n))) = Some (OReg W64 n).
Proof.
  intro H. unfold d_reg, taken_reg, reg_no, eval, guard, is_gpr, reg_taken. destruct (n mod 256 =? 16) eqn:E1; [rewrite Z.mod_small in E1 by lia; lia|].
  rewrite Z.mod_small by lia. destruct ((0 <=? n) && (n <=? 15)) eqn:E; [reflexivity|lia].
Qed.
Lemma d_real ev r n : 0 <= n < 16 -> d_reg (eval ev r) W64 (taken_reg (eval ev r) (RReg n)) = Some (OReg W64 n).
Proof.
  intro H. unfold d_reg, taken_reg, reg_no, eval, guard, is_gpr, reg_taken. destruct (n mod 256 =? 16) eqn:E1; [rewrite Z.mod_small in E1 by lia; lia|].
  rewrite Z.mod_small by lia. destruct ((0 <=? n) && (n <=? 15)) eqn:E; [reflexivity|lia].
Qed.
Lemma d_slot ev r rel o : 0 < o < 2 ^ 31 -> d_mem (eval ev r) rel (taken_mem (eval ev r) (mkInd (RReg 5) PScaleNone (PExpr true (ELit o)))) = Some (slot o).
Proof.
  intro H. assert (W : wrap32 (- o) = - o) by (unfold wrap32; rewrite Z.mod_opp_l_nz; rewrite ?Z.mod_small by lia; [|lia|lia]; destruct (_ <? _) eqn:E; lia).
  unfold d_mem, taken_mem, taken_disp. cbn [ia_base ia_scale ia_disp d_disp eval]. rewrite W. unfold guard, in_i32.
  match goal with |- context [if ?c then Some tt else None] => assert (C : c = true) by lia; rewrite C end. reflexivity.
Qed.
Lemma text_is vars labs t body frz code mark refs :
  stmts t = body -> typed rust_ev (lookup 0 vars) body -> defined body = match block_mark body with Some x => [x] | None => [] end ->
  mark = option_map (lookup 0%nat labs) (block_mark body) -> refs = map (lookup 0%nat labs) (body_labels body) -> frozen rust_ev (lookup 0 vars) body = frz ->
  (forall T, expects (as_linked (eval rust_ev (lookup 0 vars))) (fun x => T (lookup 0%nat labs x)) frz (code T)) ->
  item_ok (mkItem (text vars labs t) mark refs code).
Proof. intros <- Ty D -> -> <- X. exact (text_item vars labs t code Ty D X). Qed.
Ltac typ := cbn; repeat split; repeat constructor.
Ltac is_text body frz := apply (text_is _ _ _ body frz); [vm_compute; reflexivity|typ|reflexivity|reflexivity|reflexivity|reflexivity|intro T].
Ltac stm := split; [reflexivity|]; split; [
  intros next y Hy; unfold as_linked, assembled in Hy; cbn [taken slip denote taken_mov taken_rm taken_rmi taken_dest d_movq d_rm d_rmi width_of] in Hy;
  unfold d_alu in Hy; cbn [taken slip denote taken_mov taken_rm taken_rmi taken_dest d_movq d_rm d_rmi width_of is_mem_rm is_mem_rmi andb] in Hy;
  rewrite ?d_taken, ?d_real, ?d_slot in Hy by lia; cbn in Hy; rewrite ?Z.add_0_r in Hy; try (injection Hy as <-; split; [reflexivity|exact I])|].

Definition b_set_int := Eval vm_compute in stmts "movq R(reg + 12), (val as u64);".
Lemma it_set_int k v : reg_ok k -> item_ok (vm_item (VInt k v)).
Proof.
  intro H. unfold reg_ok in H. is_text b_set_int [IMovq (MovReg (RExpr (ELit (k + 12)))) (MovImm (ELit (u64 v)) None)].
  stm. exact I.
Qed.
Definition b_get := Eval vm_compute in stmts "movq R(reg + 12), [rbp-(offset)];".
Lemma it_get f k o : 0 <= v_locals f < 2 ^ 28 - 1 -> reg_ok k -> var_ok f o -> item_ok (vm_item (VGet k o)).
Proof.
  intros Hl H [V _]. unfold reg_ok in H. is_text b_get [IMovq (MovReg (RExpr (ELit (k + 12)))) (MovInd (mkInd (RReg 5) PScaleNone (PExpr true (ELit o))))].
  stm. exact I.
Qed.
Definition b_setl := Eval vm_compute in stmts "movq [rbp-(offset)], R(reg + 12);".
Lemma it_set f k o : 0 <= v_locals f < 2 ^ 28 - 1 -> reg_ok k -> var_ok f o -> item_ok (vm_item (VSet k o)).
Proof.
  intros Hl H [V _]. unfold reg_ok in H. is_text b_setl [IMovq (MovInd (mkInd (RReg 5) PScaleNone (PExpr true (ELit o)))) (MovReg (RExpr (ELit (k + 12))))].
  stm. exact I.
Qed.
Definition b_sub := Eval vm_compute in stmts "subq R(dest_reg + 12), R(src_reg + 12);".
Lemma it_sub d r : reg_ok d -> reg_ok r -> item_ok (vm_item (VSub d r)).
Proof.
  unfold reg_ok. intros H K. is_text b_sub [ISub QWORD (RmReg (RExpr (ELit (d + 12)))) (RmiReg (RExpr (ELit (r + 12))))].
  stm. exact I.
Qed.
Definition b_add := Eval vm_compute in stmts "addq R(dest_reg + 12), R(src_reg + 12);".
Lemma it_add d r : reg_ok d -> reg_ok r -> item_ok (vm_item (VAdd d r)).
Proof.
  unfold reg_ok. intros H K. is_text b_add [IAdd QWORD (RmReg (RExpr (ELit (d + 12)))) (RmiReg (RExpr (ELit (r + 12))))].
  stm. exact I.
Qed.
Definition b_cmp := Eval vm_compute in stmts "cmpq R(dest_reg + 12), R(src_reg + 12);".
Lemma it_cmp d r : reg_ok d -> reg_ok r -> item_ok (vm_item (VCmp d r)).
Proof.
  unfold reg_ok. intros H K. is_text b_cmp [ICmp QWORD (RmReg (RExpr (ELit (d + 12)))) (RmiReg (RExpr (ELit (r + 12))))].
  stm. exact I.
Qed.
Definition b_jne := Eval vm_compute in stmts "jne dest;".
Lemma it_jne l : item_ok (vm_item (VJne l)).
Proof. is_text b_jne b_jne. stm. exact I. Qed.
Definition b_jmp := Eval vm_compute in stmts "jmp label;".
Lemma it_jmp l : item_ok (vm_item (VJmp l)).
Proof. is_text b_jmp b_jmp. stm. exact I. Qed.
Definition b_mark := Eval vm_compute in stmts "label:".
Lemma it_label l : item_ok (vm_item (VMark l)).
Proof. is_text b_mark b_mark. exact I. Qed.
Definition b_call := Eval vm_compute in stmts "movq rdi, R(arg0_reg + 12); call dest; movq R(ret_reg + 12), rax;".
Lemma it_call f a r : reg_ok a -> reg_ok r -> item_ok (vm_item (VCall f a r)).
Proof.
  unfold reg_ok. intros H K. is_text b_call [IMovq (MovReg (RReg 7)) (MovReg (RExpr (ELit (a + 12)))); ICall (DestRel "dest"); IMovq (MovReg (RExpr (ELit (r + 12)))) (MovReg (RReg 0))].
  stm. stm. stm. exact I.
Qed.
Definition b_const := Eval vm_compute in stmts "movq rax, (val);".
Lemma it_const v : item_ok (vm_item (VConst v)).
Proof. is_text b_const [IMovq (MovReg (RReg 0)) (MovImm (ELit v) None)]. stm. exact I. Qed.
Definition b_result := Eval vm_compute in stmts "movq rax, R(reg + 12);".
Lemma it_result k : reg_ok k -> item_ok (vm_item (VResult k)).
Proof. unfold reg_ok. intro H. is_text b_result [IMovq (MovReg (RReg 0)) (MovReg (RExpr (ELit (k + 12))))]. stm. exact I. Qed.
Definition b_puts := Eval vm_compute in stmts "movq rdi, R(reg + 12); movq rax, (monoasm::test::PUTINT as u64); call rax;".
Lemma it_puts k p : reg_ok k -> item_ok (vm_item (VPuts k p)).
Proof.
  unfold reg_ok. intro H. is_text b_puts [IMovq (MovReg (RReg 7)) (MovReg (RExpr (ELit (k + 12)))); IMovq (MovReg (RReg 0)) (MovImm (ELit (u64 p)) None); ICall (DestReg 0)].
  stm. stm. stm. exact I.
Qed.
Lemma vm_item_ok fs f i : 0 <= v_locals f < 2 ^ 28 - 1 -> vmi_ok fs f i -> item_ok (vm_item i).
Proof.
  intros Hl H. destruct i; cbn [vmi_ok] in H.
  - apply it_set_int, H.
  - destruct H. apply (it_get f); assumption.
  - destruct H. apply (it_set f); assumption.
  - destruct H. apply it_sub; assumption.
  - destruct H. apply it_add; assumption.
  - destruct H. apply it_cmp; assumption.
  - apply it_jne.
  - apply it_jmp.
  - apply it_label.
  - destruct H as (_ & H & K). apply it_call; assumption.
  - apply it_const.
  - apply it_result, H.
  - apply it_puts, H.
Qed.

(** ** The rest of a function *)
Definition locals_of (f : vfun) : Z := v_locals f + v_locals f mod 2.
Definition i_name (f : vfun) : item := mkItem (OBind (v_name f)) (Some (v_name f)) [] (fun _ => []).
Definition i_prologue (f : vfun) : item := mkItem (vm_prologue (v_locals f)) None [] (fun _ =>
  [op1 Push (gr 5); op2 Mov (gr 5) (gr 4); op2 (Alu SUB) (gr 4) (OImm (8 * locals_of f))]).
Definition i_save (f : vfun) : item := mkItem (text [("x_ofs", v_arg f)] [] "pushq r12; pushq r13; pushq r14; pushq r15; movq [rbp-(x_ofs)], rdi;") None [] (fun _ =>
  [op1 Push (gr 12); op1 Push (gr 13); op1 Push (gr 14); op1 Push (gr 15); op2 Mov (slot (v_arg f)) (gr 7)]).
Definition i_end (f : vfun) : item := mkItem (text [] [("end", v_end f)] "end: popq r15; popq r14; popq r13; popq r12;") (Some (v_end f)) [] (fun _ =>
  [op1 Pop (gr 15); op1 Pop (gr 14); op1 Pop (gr 13); op1 Pop (gr 12)]).
Definition i_epilogue : item := mkItem vm_epilogue None [] (fun _ => [op2 Mov (gr 4) (gr 5); op1 Pop (gr 5); fun _ => mkIns Ret W64 []]).
Definition fun_tail (f : vfun) : list item := [i_end f; i_epilogue].
Definition fun_items (f : vfun) : list item := [i_name f; i_prologue f; i_save f] ++ map vm_item (v_body f) ++ fun_tail f.
Lemma fun_ops f : map it_op (fun_items f) = vm_fun f.
Proof. unfold fun_items, vm_fun, fun_tail. rewrite !map_app, map_map. reflexivity. Qed.
Definition b_pro := Eval vm_compute in stmts "pushq rbp; movq rbp, rsp; subq rsp, ((locals + locals % 2)*8);".
Lemma it_pro f : 0 <= v_locals f < 2 ^ 28 - 1 -> item_ok (i_prologue f).
Proof.
  intro Hl. set (n := (v_locals f + Z.rem (v_locals f) 2) * 8).
  assert (E : i64 n = 8 * locals_of f).
  { unfold n, locals_of. rewrite Z.rem_mod_nonneg by lia. pose proof (Z.mod_pos_bound (v_locals f) 2 eq_refl).
    rewrite i64_small by lia. lia. }
  is_text b_pro [IPushq (RmReg (RReg 5)); IMovq (MovReg (RReg 5)) (MovReg (RReg 4)); ISub QWORD (RmReg (RReg 4)) (RmiImm (ELit n))].
  stm. stm. stm.
  - unfold d_imm in Hy. cbn [eval] in Hy. rewrite E in Hy. destruct (guard _); [|discriminate]. cbn in Hy. injection Hy as <-. split; [reflexivity|exact I].
  - exact I.
Qed.
Definition b_save := Eval vm_compute in stmts "pushq r12; pushq r13; pushq r14; pushq r15; movq [rbp-(x_ofs)], rdi;".
Lemma it_save f : 0 <= v_locals f < 2 ^ 28 - 1 -> var_ok f (v_arg f) -> item_ok (i_save f).
Proof.
  intros Hl [V _]. is_text b_save [IPushq (RmReg (RReg 12)); IPushq (RmReg (RReg 13)); IPushq (RmReg (RReg 14)); IPushq (RmReg (RReg 15));
    IMovq (MovInd (mkInd (RReg 5) PScaleNone (PExpr true (ELit (v_arg f))))) (MovReg (RReg 7))].
  do 5 stm. exact I.
Qed.
Definition b_end := Eval vm_compute in stmts "end: popq r15; popq r14; popq r13; popq r12;".
Lemma it_end f : item_ok (i_end f).
Proof. is_text b_end b_end. do 4 stm. exact I. Qed.
Definition b_epi := Eval vm_compute in stmts "movq rsp, rbp; popq rbp; ret;".
Lemma it_epi : item_ok i_epilogue.
Proof. is_text b_epi b_epi. do 3 stm. exact I. Qed.
