(** Expressions with effects: what a block should do with them.  Each expression of a statement
    is evaluated once, an immediate before the other operands, which see it as the variable
    imm; the statement is then the one with the values in place of the expressions.
    The order of the other operands is: base, displacement, index of a memory operand; of two
    operands the one which is a register or a shift count and written second comes first, except that
    the instructions whose destination must be a register (xmm, movsx, movzx, cmov, lea, imul, bit
    counts) and loads take the destination first. *)
From Verif Require Import Base ModelSyntax ModelMacro SpecAsm SpecProg.
Local Open Scope Z_scope.

Section Effects.
Variable W : Type.
Variable ev : list tok -> env -> W -> Z * W.      (* value and effect *)
Definition act (A : Type) : Type := W -> A * W.
Definition value (r : env) (e : expr) : act Z := fun w => match e with ELit v => (v, w) | EToks ts => ev ts r w end.
Definition yields {A} (a : A) : act A := fun w => (a, w).
Definition andthen {A B} (f : act A) (g : A -> act B) : act B := fun w => let (a, w1) := f w in g a w1.
Definition into {A B} (f : act A) (g : A -> B) : act B := andthen f (fun a => yields (g a)).
(** both operands, the first or the second evaluated first *)
Definition left_first {A B C} (f : act A) (g : act B) (k : A -> B -> C) : act C := andthen f (fun a => into g (fun b => k a b)).
Definition right_first {A B C} (f : act A) (g : act B) (k : A -> B -> C) : act C := andthen g (fun b => into f (fun a => k a b)).

Section In.
Variable r : env.
Definition v_expr (e : expr) : act expr := into (value r e) ELit.
Definition v_reg (g : register) : act register := match g with RReg n => yields (RReg n) | RExpr e => into (v_expr e) RExpr end.
Definition v_disp (d : pdisp) : act pdisp := match d with PExpr n e => into (v_expr e) (PExpr n) | d => yields d end.
Definition v_scale (sc : pscale) : act pscale := match sc with PScaleNone => yields PScaleNone | PS1 k g => into (v_reg g) (PS1 k) end.
Definition v_mem (a : ind_addr) : act ind_addr :=
  andthen (v_reg (ia_base a)) (fun b => andthen (v_disp (ia_disp a)) (fun d => into (v_scale (ia_scale a)) (fun sc => mkInd b sc d))).
Definition v_rm (o : rm_operand) : act rm_operand := match o with RmReg g => into (v_reg g) RmReg | RmInd a => into (v_mem a) RmInd end.
Definition v_rmi (o : rmi_operand) : act rmi_operand :=
  match o with RmiImm e => into (v_expr e) RmiImm | RmiReg g => into (v_reg g) RmiReg | RmiInd a => into (v_mem a) RmiInd end.
Definition v_ri (o : ri_operand) : act ri_operand := match o with RiImm e => into (v_expr e) RiImm | RiReg g => into (v_reg g) RiReg end.
Definition v_xm (o : xm_operand) : act xm_operand := match o with XmXmm e => into (v_expr e) XmXmm | XmInd a => into (v_mem a) XmInd end.
Definition v_mov (o : mov_operand) : act mov_operand :=
  match o with
  | MovImm e z => into (v_expr e) (fun e => MovImm e z) | MovReg g => into (v_reg g) MovReg
  | MovXmm e => into (v_expr e) MovXmm | MovInd a => into (v_mem a) MovInd
  end.
Definition v_dest (d : dest) : act dest := match d with DestDisp e => into (v_expr e) DestDisp | DestInd a => into (v_mem a) DestInd | d => yields d end.
End In.

(** An immediate, then the rest where imm is the immediate. *)
Definition with_imm {A} (r : env) (e : expr) (rest : env -> expr -> act A) : act (A * env) :=
  andthen (value r e) (fun v => let r' := env_set "imm" (i64 v) r in into (rest r' (ELit v)) (fun a => (a, r'))).
Definition same {A} (r : env) (f : act A) : act (A * env) := into f (fun a => (a, r)).
Definition v_bin (r : env) (a : rm_operand) (b : rmi_operand) (k : rm_operand -> rmi_operand -> inst) : act (inst * env) :=
  match b with
  | RmiImm e => with_imm r e (fun r' v => into (v_rm r' a) (fun a => k a (RmiImm v)))
  | RmiReg _ => same r (right_first (v_rm r a) (v_rmi r b) k)
  | RmiInd _ => same r (left_first (v_rm r a) (v_rmi r b) k)
  end.
Definition v_shf (r : env) (a : rm_operand) (b : ri_operand) (k : rm_operand -> ri_operand -> inst) : act (inst * env) :=
  match b with
  | RiImm e => with_imm r e (fun r' v => into (v_rm r' a) (fun a => k a (RiImm v)))
  | RiReg _ => same r (right_first (v_rm r a) (v_ri r b) k)
  end.
Definition v_movq (r : env) (a b : mov_operand) : act (inst * env) :=
  match a, b with
  | _, MovImm e z => with_imm r e (fun r' v => into (v_mov r' a) (fun a => IMovq a (MovImm v z)))
  | _, MovReg _ | MovInd _, MovXmm _ => same r (right_first (v_mov r a) (v_mov r b) IMovq)
  | _, _ => same r (left_first (v_mov r a) (v_mov r b) IMovq)
  end.
(** The statement with its expressions evaluated, and the variables after it. *)
Definition v_inst (r : env) (i : inst) : act (inst * env) :=
  match i with
  | IMovq a b => v_movq r a b
  | IMovl a b => v_bin r a b IMovl | IMovw a b => v_bin r a b IMovw | IMovb a b => v_bin r a b IMovb
  | IAdd z a b => v_bin r a b (IAdd z) | ISub z a b => v_bin r a b (ISub z) | IAdc z a b => v_bin r a b (IAdc z) | ISbb z a b => v_bin r a b (ISbb z)
  | IAnd z a b => v_bin r a b (IAnd z) | IOr z a b => v_bin r a b (IOr z) | IXor z a b => v_bin r a b (IXor z) | ICmp z a b => v_bin r a b (ICmp z)
  | IShl z a b => v_shf r a b (IShl z) | IShr z a b => v_shf r a b (IShr z) | ISal z a b => v_shf r a b (ISal z)
  | ISar z a b => v_shf r a b (ISar z) | IRol z a b => v_shf r a b (IRol z) | IRor z a b => v_shf r a b (IRor z)
  | ITestq a b => v_shf r a b ITestq | ITestb a b => v_shf r a b ITestb
  | IXchg z a (RmReg g) => same r (right_first (v_rm r a) (v_rm r (RmReg g)) (IXchg z))
  | IXchg z a b => same r (left_first (v_rm r a) (v_rm r b) (IXchg z))
  | IMovsd (XmInd a) (XmXmm x) => same r (right_first (v_xm r (XmInd a)) (v_xm r (XmXmm x)) IMovsd)
  | IMovsd a b => same r (left_first (v_xm r a) (v_xm r b) IMovsd)
  | IMovsxl a b => same r (left_first (v_reg r a) (v_rm r b) IMovsxl)
  | IMovzxw a b => same r (left_first (v_reg r a) (v_rm r b) IMovzxw) | IMovsxw a b => same r (left_first (v_reg r a) (v_rm r b) IMovsxw)
  | IMovzxb a b => same r (left_first (v_reg r a) (v_rm r b) IMovzxb) | IMovsxb a b => same r (left_first (v_reg r a) (v_rm r b) IMovsxb)
  | ICmovcc z c a b => same r (left_first (v_reg r a) (v_rm r b) (ICmovcc z c))
  | ILzcnt z a b => same r (left_first (v_reg r a) (v_rm r b) (ILzcnt z)) | ITzcnt z a b => same r (left_first (v_reg r a) (v_rm r b) (ITzcnt z))
  | IPopcnt z a b => same r (left_first (v_reg r a) (v_rm r b) (IPopcnt z))
  | IImul a b => same r (left_first (v_rmi r a) (v_rmi r b) IImul)
  | ILea a b => same r (left_first (v_rm r a) (v_rm r b) ILea)
  | INegq a => same r (into (v_rm r a) INegq)
  | IIdiv a => same r (into (v_rm r a) IIdiv) | IIdivl a => same r (into (v_rm r a) IIdivl) | IDiv a => same r (into (v_rm r a) IDiv) | IDivl a => same r (into (v_rm r a) IDivl)
  | ISetcc c a => same r (into (v_rm r a) (ISetcc c))
  | IPushq a => same r (into (v_rm r a) IPushq) | IPopq a => same r (into (v_rm r a) IPopq)
  | IJmp d => same r (into (v_dest r d) IJmp) | ICall d => same r (into (v_dest r d) ICall)
  | IAddsd a b => same r (left_first (v_expr r a) (v_xm r b) IAddsd) | ISubsd a b => same r (left_first (v_expr r a) (v_xm r b) ISubsd)
  | IMulsd a b => same r (left_first (v_expr r a) (v_xm r b) IMulsd) | IDivsd a b => same r (left_first (v_expr r a) (v_xm r b) IDivsd)
  | IXorps a b => same r (left_first (v_expr r a) (v_xm r b) IXorps) | IUComIsd a b => same r (left_first (v_expr r a) (v_xm r b) IUComIsd)
  | IMinsd a b => same r (left_first (v_expr r a) (v_xm r b) IMinsd) | IMaxsd a b => same r (left_first (v_expr r a) (v_xm r b) IMaxsd)
  | IAndpd a b => same r (left_first (v_expr r a) (v_xm r b) IAndpd) | IXorpd a b => same r (left_first (v_expr r a) (v_xm r b) IXorpd)
  | ISqrtpd a b => same r (left_first (v_expr r a) (v_xm r b) ISqrtpd) | ISqrtsd a b => same r (left_first (v_expr r a) (v_xm r b) ISqrtsd)
  | IRoundpd a b e => same r (andthen (v_expr r a) (fun a => left_first (v_xm r b) (v_expr r e) (IRoundpd a)))
  | ICvtsi2sdq a b => same r (left_first (v_expr r a) (v_rm r b) ICvtsi2sdq) | ICvttsd2siq a b => same r (left_first (v_reg r a) (v_xm r b) ICvttsd2siq)
  | i => yields (i, r)
  end.
Fixpoint v_body (r : env) (body : list inst) : act (list inst) :=
  match body with [] => yields [] | i :: b => andthen (v_inst r i) (fun x => into (v_body (snd x) b) (cons (fst x))) end.
End Effects.

(** Statements that the expansion evaluates once: not movq, testq, testb of an immediate and a
    register given by an expression, nor xchg of two registers one of which is. *)
Definition is_computed (g : register) : bool := match g with RExpr (EToks _) => true | _ => false end.
Definition evaluated_once (i : inst) : Prop :=
  match i with
  | IMovq (MovReg g) (MovImm _ _) | ITestq (RmReg g) (RiImm _) | ITestb (RmReg g) (RiImm _) => is_computed g = false
  | IXchg _ (RmReg g) (RmReg h) => is_computed g = false /\ is_computed h = false
  | _ => True
  end.
(** A caller that records which expressions are evaluated, and in which order. *)
Definition recording (ev : list tok -> env -> Z) (ts : list tok) (r : env) (w : list (list tok)) : Z * list (list tok) := (ev ts r, w ++ [ts]).
(** The expressions of a statement (literals and registers' names are not). *)
Definition written (i : inst) : list (list tok) := flat_map (fun e => match e with ELit _ => [] | EToks ts => [ts] end) (stmt_exprs i).
