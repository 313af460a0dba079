(** Which variables the expressions of a block see: the statement [i] with an immediate [e]
    defines a variable imm, with the value of [e] as an i64, for its own other operands and for
    every statement after it in the block.  [frozen] replaces each expression by the value it
    thus has. *)
From Verif Require Import Base ModelMem ModelSyntax ModelMacro SpecX86 SpecAsm SpecTaken SpecState.
Local Open Scope Z_scope.

(** The immediate for which a statement defines imm. *)
Definition own_imm (i : inst) : option expr :=
  match i with
  | IMovq _ (MovImm e _) => Some e
  | IMovl _ (RmiImm e) | IMovw _ (RmiImm e) | IMovb _ (RmiImm e) => Some e
  | IAdd _ _ (RmiImm e) | ISub _ _ (RmiImm e) | IAdc _ _ (RmiImm e) | ISbb _ _ (RmiImm e) | IAnd _ _ (RmiImm e) | IOr _ _ (RmiImm e)
  | IXor _ _ (RmiImm e) | ICmp _ _ (RmiImm e) => Some e
  | IShl _ _ (RiImm e) | IShr _ _ (RiImm e) | ISal _ _ (RiImm e) | ISar _ _ (RiImm e) | IRol _ _ (RiImm e) | IRor _ _ (RiImm e) => Some e
  | ITestq _ (RiImm e) | ITestb _ (RiImm e) => Some e
  | _ => None
  end.

(** Replacing immediates by their values [vi] and other expressions by their values [vo]. *)
Section Values.
Variables vi vo : expr -> Z.
Definition fz_imm (e : expr) : expr := ELit (vi e).
Definition fz_xmm (e : expr) : expr := ELit (vo e).
Definition fz_reg (r : register) : register := match r with RReg n => RReg n | RExpr e => RExpr (ELit (vo e)) end.
Definition fz_disp (d : pdisp) : pdisp := match d with PExpr n e => PExpr n (ELit (vo e)) | d => d end.
Definition fz_scale (sc : pscale) : pscale := match sc with PScaleNone => PScaleNone | PS1 k g => PS1 k (fz_reg g) end.
Definition fz_mem (a : ind_addr) : ind_addr := mkInd (fz_reg (ia_base a)) (fz_scale (ia_scale a)) (fz_disp (ia_disp a)).
Definition fz_rm (o : rm_operand) : rm_operand := match o with RmReg g => RmReg (fz_reg g) | RmInd a => RmInd (fz_mem a) end.
Definition fz_rmi (o : rmi_operand) : rmi_operand :=
  match o with RmiImm e => RmiImm (fz_imm e) | RmiReg g => RmiReg (fz_reg g) | RmiInd a => RmiInd (fz_mem a) end.
Definition fz_ri (o : ri_operand) : ri_operand := match o with RiImm e => RiImm (fz_imm e) | RiReg g => RiReg (fz_reg g) end.
Definition fz_xm (o : xm_operand) : xm_operand := match o with XmXmm e => XmXmm (fz_xmm e) | XmInd a => XmInd (fz_mem a) end.
Definition fz_mov (o : mov_operand) : mov_operand :=
  match o with MovImm e z => MovImm (fz_imm e) z | MovReg g => MovReg (fz_reg g) | MovXmm e => MovXmm (fz_xmm e) | MovInd a => MovInd (fz_mem a) end.
Definition fz_dest (d : dest) : dest := match d with DestDisp e => DestDisp (fz_imm e) | DestInd a => DestInd (fz_mem a) | d => d end.
Definition fz_inst (i : inst) : inst :=
  match i with
  | ILabel x => ILabel x | IF64 b => IF64 b | II64 v => II64 v
  | IMovq a b => IMovq (fz_mov a) (fz_mov b)
  | IMovl a b => IMovl (fz_rm a) (fz_rmi b) | IMovw a b => IMovw (fz_rm a) (fz_rmi b) | IMovb a b => IMovb (fz_rm a) (fz_rmi b)
  | IMovsxl a b => IMovsxl (fz_reg a) (fz_rm b) | IMovzxw a b => IMovzxw (fz_reg a) (fz_rm b) | IMovsxw a b => IMovsxw (fz_reg a) (fz_rm b)
  | IMovzxb a b => IMovzxb (fz_reg a) (fz_rm b) | IMovsxb a b => IMovsxb (fz_reg a) (fz_rm b)
  | IAdd z a b => IAdd z (fz_rm a) (fz_rmi b) | ISub z a b => ISub z (fz_rm a) (fz_rmi b) | IAdc z a b => IAdc z (fz_rm a) (fz_rmi b)
  | ISbb z a b => ISbb z (fz_rm a) (fz_rmi b) | IAnd z a b => IAnd z (fz_rm a) (fz_rmi b) | IOr z a b => IOr z (fz_rm a) (fz_rmi b)
  | IXor z a b => IXor z (fz_rm a) (fz_rmi b) | ICmp z a b => ICmp z (fz_rm a) (fz_rmi b)
  | IXchg z a b => IXchg z (fz_rm a) (fz_rm b) | INegq a => INegq (fz_rm a)
  | IShl z a b => IShl z (fz_rm a) (fz_ri b) | IShr z a b => IShr z (fz_rm a) (fz_ri b) | ISal z a b => ISal z (fz_rm a) (fz_ri b)
  | ISar z a b => ISar z (fz_rm a) (fz_ri b) | IRol z a b => IRol z (fz_rm a) (fz_ri b) | IRor z a b => IRor z (fz_rm a) (fz_ri b)
  | IImul a b => IImul (fz_rmi a) (fz_rmi b)
  | IIdiv a => IIdiv (fz_rm a) | IIdivl a => IIdivl (fz_rm a) | IDiv a => IDiv (fz_rm a) | IDivl a => IDivl (fz_rm a)
  | ILea a b => ILea (fz_rm a) (fz_rm b)
  | ITestq a b => ITestq (fz_rm a) (fz_ri b) | ITestb a b => ITestb (fz_rm a) (fz_ri b)
  | ISetcc c a => ISetcc c (fz_rm a) | ICmovcc z c a b => ICmovcc z c (fz_reg a) (fz_rm b)
  | IMovsd a b => IMovsd (fz_xm a) (fz_xm b)
  | IAddsd a b => IAddsd (fz_xmm a) (fz_xm b) | ISubsd a b => ISubsd (fz_xmm a) (fz_xm b) | IMulsd a b => IMulsd (fz_xmm a) (fz_xm b)
  | IDivsd a b => IDivsd (fz_xmm a) (fz_xm b) | IXorps a b => IXorps (fz_xmm a) (fz_xm b) | IUComIsd a b => IUComIsd (fz_xmm a) (fz_xm b)
  | IMinsd a b => IMinsd (fz_xmm a) (fz_xm b) | IMaxsd a b => IMaxsd (fz_xmm a) (fz_xm b) | IAndpd a b => IAndpd (fz_xmm a) (fz_xm b)
  | IXorpd a b => IXorpd (fz_xmm a) (fz_xm b) | IRoundpd a b e => IRoundpd (fz_xmm a) (fz_xm b) (fz_imm e)
  | ICvtsi2sdq a b => ICvtsi2sdq (fz_xmm a) (fz_rm b) | ICvttsd2siq a b => ICvttsd2siq (fz_reg a) (fz_xm b)
  | ISqrtpd a b => ISqrtpd (fz_xmm a) (fz_xm b) | ISqrtsd a b => ISqrtsd (fz_xmm a) (fz_xm b)
  | IPushq a => IPushq (fz_rm a) | IPopq a => IPopq (fz_rm a)
  | IJmp d => IJmp (fz_dest d) | ICall d => ICall (fz_dest d) | IJcc c x => IJcc c x
  | ILzcnt z a b => ILzcnt z (fz_reg a) (fz_rm b) | ITzcnt z a b => ITzcnt z (fz_reg a) (fz_rm b) | IPopcnt z a b => IPopcnt z (fz_reg a) (fz_rm b)
  | ICqo => ICqo | ICdq => ICdq | ILeave => ILeave | IRet => IRet | ISyscall => ISyscall | IInt3 => IInt3
  end.
End Values.

Section Scope.
Variable ev : list tok -> env -> Z.
(** The variables after a statement; its own operands but the immediate see them too. *)
Definition scope_after (r : env) (i : inst) : env :=
  match own_imm i with Some e => env_set "imm" (i64 (eval ev r e)) r | None => r end.
Fixpoint scope_after_all (r : env) (body : list inst) : env :=
  match body with [] => r | i :: b => scope_after_all (scope_after r i) b end.
(** The block with every expression replaced by its value. *)
Definition frozen1 (r : env) (i : inst) : inst := fz_inst (eval ev r) (eval ev (scope_after r i)) i.
Fixpoint frozen (r : env) (body : list inst) : list inst :=
  match body with [] => [] | i :: b => frozen1 r i :: frozen (scope_after r i) b end.
End Scope.

(** The third operand of roundpd, in its scope, is a u8; scale factors are 1, 2, 4 or 8. *)
Fixpoint typed (ev : list tok -> env -> Z) (r : env) (body : list inst) : Prop :=
  match body with [] => True | i :: b => (is_instr i = true -> roundpd_u8 ev r i /\ scales_written i) /\ typed ev (scope_after ev r i) b end.
Definition literal (e : expr) : Prop := exists v, e = ELit v.
