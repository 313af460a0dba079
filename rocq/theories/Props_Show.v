(** Property C75: the operand in a message, read as source, is the operand written.  [display_..] (ModelShow) is what the Display
    implementations print; [shows read means after text o] (SpecShow): [text], with [after] behind it, is read as an operand with the meaning of [o]. *)
From Verif Require Import Base ModelSyntax ModelParse SpecX86 SpecAsm ModelShow SpecShow ShowFacts ShowDemo.
Local Open Scope string_scope.
Local Open Scope list_scope.
Local Open Scope Z_scope.

(** ** C75.  Missing from the full statement: memory operands with an index or a label, immediates that are expressions or have a
    size; all four are shown as something else. *)
Theorem C75_rm_partial : forall is_expr checks ev rel, rust is_expr ev -> forall w o, rm_simple is_expr ev o ->
  shows (p_rm is_expr checks) (d_rm (value ev) rel w) (fun _ => True) (display_rm o) o.
Proof. exact rm_shown. Qed.
Print Assumptions C75_rm_partial.
Theorem C75_rmi_partial : forall is_expr checks ev rel, rust is_expr ev -> forall w o, rmi_simple is_expr ev o ->
  shows (p_rmi is_expr checks) (d_rmi (value ev) rel w) ended (display_rmi o) o.
Proof. exact rmi_shown. Qed.
Print Assumptions C75_rmi_partial.
Theorem C75_ri_partial : forall is_expr ev, rust is_expr ev -> forall w o, ri_simple is_expr o ->
  shows (p_ri is_expr) (d_ri (value ev) w) ended (display_ri o) o.
Proof. exact ri_shown. Qed.
Print Assumptions C75_ri_partial.
Theorem C75_xm_partial : forall is_expr checks ev rel, rust is_expr ev -> forall o, xm_simple is_expr ev o ->
  shows (p_xm is_expr checks) (d_xm (value ev) rel) (fun _ => True) (display_xm o) o.
Proof. exact xm_shown. Qed.
Print Assumptions C75_xm_partial.
Theorem C75_mov_partial : forall is_expr checks ev rel, rust is_expr ev -> forall o, mov_simple is_expr ev o ->
  shows (p_mov is_expr checks) (d_mov (value ev) rel) ended (display_mov o) o.
Proof. exact mov_shown. Qed.
Print Assumptions C75_mov_partial.
(** [rbx - (x)], read back. *)
Example C75_case : rm_simple yes ev40 opA /\ d_rm (value ev40) rel0 W64 opA = Some (OMem (mkMem (Some (BReg 3)) None (-40))) /\
  display_rm opA = [TGroup Bracket [TIdent "R"; TGroup Paren [TInt 3]; TPunct "+"; TGroup Paren [TPunct "-"; TGroup Paren [TIdent "x"; TIdent "as"; TIdent "i32"]]]] /\
  p_rm yes true (display_rm opA) = Some (RmInd (mkInd (RExpr (EToks [TInt 3])) PScaleNone (PExpr false (EToks [TPunct "-"; TGroup Paren [TIdent "x"; TIdent "as"; TIdent "i32"]]))), []).
Proof. exact caseA. Qed.
(** xmm7, 9, rcx and [rip - 8]. *)
Example C75_others : rust yes ev40 /\ mov_simple yes ev40 opM /\ d_mov (value ev40) rel0 opM = Some (OXmm 7) /\
  display_mov opM = [TIdent "xmm"; TGroup Paren [TInt 7; TIdent "as"; TIdent "u64"]] /\
  rmi_simple yes ev40 (RmiImm (ELit 9)) /\ display_rmi (RmiImm (ELit 9)) = [TInt 9] /\ ri_simple yes (RiReg (RReg 1)) /\
  xm_simple yes ev40 (XmInd (mkInd (RReg 16) PScaleNone (PImm (-8)))) /\
  display_xm (XmInd (mkInd (RReg 16) PScaleNone (PImm (-8)))) = [TGroup Bracket [TIdent "R"; TGroup Paren [TInt 16]; TPunct "+"; TGroup Paren [TPunct "-"; TInt 8]]].
Proof. exact caseM. Qed.
(** [rax + rbx*8] is shown as [R(0) + (0)]. *)
Theorem C75_index_refuted : exists o x, forall is_expr checks ev rel, rust is_expr ev -> d_rm (value ev) rel W64 o = Some x /\
  ~ shows (p_rm is_expr checks) (d_rm (value ev) rel W64) (fun _ => True) (display_rm o) o.
Proof. exact index_lost. Qed.
Print Assumptions C75_index_refuted.
(** [rip + l] is shown as [R(16) + (l)], where l is an expression. *)
Theorem C75_label_refuted : exists is_expr ev rel o x, rust is_expr ev /\ d_rm (value ev) rel W64 o = Some x /\
  ~ shows (p_rm is_expr true) (d_rm (value ev) rel W64) (fun _ => True) (display_rm o) o.
Proof. exact label_lost. Qed.
Print Assumptions C75_label_refuted.
(** The immediate (rax) is shown as rax. *)
Theorem C75_imm_refuted : exists is_expr ev rel o x, rust is_expr ev /\ d_rmi (value ev) rel W64 o = Some x /\
  ~ shows (p_rmi is_expr true) (d_rmi (value ev) rel W64) ended (display_rmi o) o.
Proof. exact imm_lost. Qed.
Print Assumptions C75_imm_refuted.
(** qword 5 is shown as 5:QWORD. *)
Theorem C75_size_refuted : exists o x, forall is_expr checks ev rel, rust is_expr ev -> d_mov (value ev) rel o = Some x /\
  ~ shows (p_mov is_expr checks) (d_mov (value ev) rel) ended (display_mov o) o.
Proof. exact size_lost. Qed.
Print Assumptions C75_size_refuted.
