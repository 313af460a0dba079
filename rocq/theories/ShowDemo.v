(** Cases for C75. *)
From Coq Require Import Lia.
From Verif Require Import Base ModelSyntax ModelParse SpecX86 SpecAsm ModelShow SpecShow ShowFacts.
Local Open Scope string_scope.
Local Open Scope list_scope.
Local Open Scope Z_scope.

(** Expressions of a Rust in which every variable is 40. *)
Definition atom40 (ts : list tok) : Z :=
  match ts with
  | [TInt v] | [TInt v; TIdent _; TIdent _] => v
  | [TPunct _; TInt v] => - v
  | [TIdent _] | [TIdent _; TIdent _; TIdent _] => 40
  | _ => 0
  end.
Definition ev40 (ts : list tok) : Z := match ts with [TPunct _; TGroup Paren g] => i32 (- atom40 g) | _ => atom40 ts end.
Definition yes (ts : list tok) : bool := true.
Lemma ev40_cast ts : ev40 (ts ++ [TIdent "as"; TIdent "i32"]) = atom40 (ts ++ [TIdent "as"; TIdent "i32"]).
Proof.
  destruct ts as [|t1 [|t2 [|t3 ts]]]; [reflexivity| | |]; destruct t1; try reflexivity.
  - destruct t2; try reflexivity. destruct d; reflexivity.
  - destruct t2; try reflexivity. destruct d; reflexivity.
Qed.
Lemma rust40 : rust yes ev40.
Proof.
  constructor; try (intros; split; reflexivity).
  intros ts v [_ H]. split; [reflexivity|]. rewrite ev40_cast in H. cbn [ev40]. rewrite H. reflexivity.
Qed.
Definition rel0 (_ : string) : Z := 1000.

(** rbx - (x). *)
Definition opA := RmInd (mkInd (RReg 3) PScaleNone (PExpr true (EToks [TIdent "x"]))).
Lemma caseA : rm_simple yes ev40 opA /\ d_rm (value ev40) rel0 W64 opA = Some (OMem (mkMem (Some (BReg 3)) None (-40))) /\
  display_rm opA = [TGroup Bracket [TIdent "R"; TGroup Paren [TInt 3]; TPunct "+"; TGroup Paren [TPunct "-"; TGroup Paren [TIdent "x"; TIdent "as"; TIdent "i32"]]]] /\
  p_rm yes true (display_rm opA) = Some (RmInd (mkInd (RExpr (EToks [TInt 3])) PScaleNone (PExpr false (EToks [TPunct "-"; TGroup Paren [TIdent "x"; TIdent "as"; TIdent "i32"]]))), []).
Proof. repeat split; cbn; lia. Qed.
Definition opM := MovXmm (ELit 7).
Lemma caseM : rust yes ev40 /\ mov_simple yes ev40 opM /\ d_mov (value ev40) rel0 opM = Some (OXmm 7) /\
  display_mov opM = [TIdent "xmm"; TGroup Paren [TInt 7; TIdent "as"; TIdent "u64"]] /\
  rmi_simple yes ev40 (RmiImm (ELit 9)) /\ display_rmi (RmiImm (ELit 9)) = [TInt 9] /\ ri_simple yes (RiReg (RReg 1)) /\
  xm_simple yes ev40 (XmInd (mkInd (RReg 16) PScaleNone (PImm (-8)))) /\
  display_xm (XmInd (mkInd (RReg 16) PScaleNone (PImm (-8)))) = [TGroup Bracket [TIdent "R"; TGroup Paren [TInt 16]; TPunct "+"; TGroup Paren [TPunct "-"; TInt 8]]].
Proof. split; [exact rust40|]. repeat split; cbn; lia. Qed.

(** The index is not shown: [rax + rbx*8]. *)
Definition opI := RmInd (mkInd (RReg 0) (PS1 3 (RReg 3)) (PImm 0)).
Lemma index_lost : exists o x, forall is_expr checks ev rel, rust is_expr ev -> d_rm (value ev) rel W64 o = Some x /\
  ~ shows (p_rm is_expr checks) (d_rm (value ev) rel W64) (fun _ => True) (display_rm o) o.
Proof.
  exists opI, (OMem (mkMem (Some (BReg 0)) (Some (3, 8)) 0)). intros is_expr checks ev rel R. split; [reflexivity|]. intros S.
  destruct (S _ [] eq_refl I) as (o' & P & M). destruct (r_int _ _ R 0 ltac:(lia)) as [X V].
  unfold opI, display_rm, display_ind, p_rm, p_ind, p_ind_body, p_register, parse_register, p_paren_expr in P. cbn in P. rewrite X in P. cbn in P.
  unfold p_disp, p_paren_expr in P. cbn in P. rewrite X in P. injection P as <-. unfold d_rm, d_mem in M. cbn in M. rewrite V in M. discriminate M.
Qed.
(** A label is shown as an expression: [rip + l]. *)
Definition opL := RmInd (mkInd (RReg 16) PScaleNone (PLabel "l")).
Lemma label_lost : exists is_expr ev rel o x, rust is_expr ev /\ d_rm (value ev) rel W64 o = Some x /\
  ~ shows (p_rm is_expr true) (d_rm (value ev) rel W64) (fun _ => True) (display_rm o) o.
Proof.
  exists yes, ev40, rel0, opL, (OMem (mkMem (Some BRip) None 1000)). split; [exact rust40|]. split; [reflexivity|]. intros S.
  destruct (S _ [] eq_refl I) as (o' & P & M). cbn in P. injection P as <-. cbn in M. discriminate M.
Qed.
(** The parentheses of an immediate are not shown: (rax), a variable, is shown as the register. *)
Definition opP := RmiImm (EToks [TIdent "rax"]).
Lemma imm_lost : exists is_expr ev rel o x, rust is_expr ev /\ d_rmi (value ev) rel W64 o = Some x /\
  ~ shows (p_rmi is_expr true) (d_rmi (value ev) rel W64) ended (display_rmi o) o.
Proof.
  exists yes, ev40, rel0, opP, (OImm 40). split; [exact rust40|]. split; [reflexivity|]. intros S.
  destruct (S _ [TPunct ","] eq_refl) as (o' & P & M); [exists []; auto|]. cbn in P. injection P as <-. cbn in M. discriminate M.
Qed.
(** qword 5 is shown as 5:QWORD, which is no operand. *)
Lemma size_lost : exists o x, forall is_expr checks ev rel, rust is_expr ev -> d_mov (value ev) rel o = Some x /\
  ~ shows (p_mov is_expr checks) (d_mov (value ev) rel) ended (display_mov o) o.
Proof.
  exists (MovImm (ELit 5) (Some QWORD)), (OImm 5). intros is_expr checks ev rel R. split; [reflexivity|]. intros S.
  destruct (S _ [TPunct ";"] eq_refl) as (o' & P & M); [exists []; auto|]. cbn in P. discriminate P.
Qed.
