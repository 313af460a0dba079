(** Specification: the machine instruction each written instruction names, as a
    value of the decoder's instruction type (SpecX86.v).  [None] means that the
    operands name no x86-64 instruction of the written form (register number out
    of range, displacement or immediate not representable, ...).

    [val] gives the value of the operand expressions and [rel] the address of a
    label minus the address of the instruction that follows. *)
From Verif Require Import Base ModelSyntax SpecX86.

Notation "'do' x <- m ; k" := (obind m (fun x => k)) (at level 60, x name, m at level 50, right associativity).

Definition guard (b : bool) : option unit := if b then Some tt else None.

(** Intel SDM vol. 2 appendix B.1.4.7, condition test field tttn. *)
Definition cc_of (c : cond) : Z :=
  match c with
  | CO => 0x0 | CNo => 0x1 | CB => 0x2 | CAe => 0x3 | CEq => 0x4 | CNe => 0x5 | CBe => 0x6 | CA => 0x7
  | CS => 0x8 | CNs => 0x9 | CP => 0xa | CNp => 0xb | CLt => 0xc | CGe => 0xd | CLe => 0xe | CGt => 0xf
  end.

Definition width_of (s : opsize) : width :=
  match s with QWORD => W64 | DWORD => W32 | WORD => W16 | BYTE => W8 end.

Section Denote.
Variable val : expr -> Z.
Variable rel : string -> Z.

Definition reg_no (r : register) : Z := match r with RReg n => n | RExpr e => val e end.
Definition is_gpr (n : Z) : bool := (0 <=? n) && (n <=? 15).

Definition d_reg (w : width) (r : register) : option operand :=
  do _ <- guard (is_gpr (reg_no r)); Some (OReg w (reg_no r)).
Definition d_xmm (e : expr) : option operand :=
  do _ <- guard (is_gpr (val e)); Some (OXmm (val e)).

Definition d_disp (d : pdisp) : option Z :=
  match d with
  | PImm d => do _ <- guard (in_i32 d); Some d
  | PExpr negated e =>
      let v := if negated then - val e else val e in
      do _ <- guard (in_i32 v); Some v
  | PLabel l => Some (rel l)
  end.
(** [base + index * 2^k + disp]; base number 16 is rip, which takes no index;
    rsp (4) cannot be an index. *)
Definition d_mem (a : ind_addr) : option operand :=
  do d <- d_disp (ia_disp a);
  let b := reg_no (ia_base a) in
  match ia_scale a with
  | PScaleNone =>
      if b =? 16 then Some (OMem (mkMem (Some BRip) None d))
      else do _ <- guard (is_gpr b); Some (OMem (mkMem (Some (BReg b)) None d))
  | PS1 k r =>
      let i := reg_no r in
      do _ <- guard (is_gpr b && is_gpr i && negb (i =? 4) && (0 <=? k) && (k <=? 3));
      Some (OMem (mkMem (Some (BReg b)) (Some (i, 2 ^ k)) d))
  end.
Definition d_rm (w : width) (o : rm_operand) : option operand :=
  match o with RmReg r => d_reg w r | RmInd a => d_mem a end.
Definition d_xm (o : xm_operand) : option operand :=
  match o with XmXmm e => d_xmm e | XmInd a => d_mem a end.

(** Immediates: the value of the expression as an i64, which must be in the
    signed range of the operand size (at most 32 bits). *)
Definition imm_ok (w : width) (v : Z) : bool :=
  match w with W8 => in_i8 v | W16 => in_i16 v | _ => in_i32 v end.
Definition d_imm (w : width) (e : expr) : option operand :=
  do _ <- guard (imm_ok w (i64 (val e))); Some (OImm (i64 (val e))).
Definition d_rmi (w : width) (o : rmi_operand) : option operand :=
  match o with RmiImm e => d_imm w e | RmiReg r => d_reg w r | RmiInd a => d_mem a end.
Definition d_ri (w : width) (o : ri_operand) : option operand :=
  match o with RiImm e => d_imm w e | RiReg r => d_reg w r end.

Definition is_mem_rm (o : rm_operand) : bool := match o with RmInd _ => true | _ => false end.
Definition is_mem_rmi (o : rmi_operand) : bool := match o with RmiInd _ => true | _ => false end.
Definition is_mem_xm (o : xm_operand) : bool := match o with XmInd _ => true | _ => false end.

Definition d_two (m : mnem) (w : width) (x y : option operand) : option ins :=
  do a <- x; do b <- y; Some (mkIns m w [a; b]).
(** two operands that must not both be memory *)
Definition d_alu (m : mnem) (w : width) (a : rm_operand) (b : rmi_operand) : option ins :=
  do _ <- guard (negb (is_mem_rm a && is_mem_rmi b));
  d_two m w (d_rm w a) (d_rmi w b).
(** shift count: an immediate in i8 range, taken modulo the operand size as the
    CPU does, or cl *)
Definition d_shift (o : shf) (w : width) (a : rm_operand) (b : ri_operand) : option ins :=
  match b with
  | RiImm e =>
      do _ <- guard (in_i8 (i64 (val e)));
      d_two (Shift o) w (d_rm w a) (Some (OImm (i64 (val e) mod (match w with W64 => 64 | _ => 32 end))))
  | RiReg r =>
      do _ <- guard (reg_no r =? 1);
      d_two (Shift o) w (d_rm w a) (Some (OReg W8 1))
  end.

Definition d_movq (a b : mov_operand) : option ins :=
  match a, b with
  | MovReg r, MovImm e (None | Some QWORD) => d_two Mov W64 (d_reg W64 r) (Some (OImm (i64 (val e))))
  | MovReg r, MovReg r2 => d_two Mov W64 (d_reg W64 r) (d_reg W64 r2)
  | MovReg r, MovInd m => d_two Mov W64 (d_reg W64 r) (d_mem m)
  | MovInd m, MovReg r => d_two Mov W64 (d_mem m) (d_reg W64 r)
  | MovInd m, MovImm e _ => d_two Mov W64 (d_mem m) (d_imm W64 e)
  | MovXmm x, MovReg r => d_two MovX W64 (d_xmm x) (d_reg W64 r)
  | MovReg r, MovXmm x => d_two MovX W64 (d_reg W64 r) (d_xmm x)
  | MovXmm x, MovXmm y => d_two MovX W64 (d_xmm x) (d_xmm y)
  | MovXmm x, MovInd m => d_two MovX W64 (d_xmm x) (d_mem m)
  | MovInd m, MovXmm x => d_two MovX W64 (d_mem m) (d_xmm x)
  | _, _ => None
  end.

Definition d_dest (m : mnem) (d : dest) : option ins :=
  match d with
  | DestReg n => do o <- d_reg W64 (RReg n); Some (mkIns m W64 [o])
  | DestInd a => do o <- d_mem a; Some (mkIns m W64 [o])
  | DestRel l => Some (mkIns m W64 [ORel (rel l)])
  | DestDisp e => do _ <- guard (in_i32 (i64 (val e))); Some (mkIns m W64 [ORel (i64 (val e))])
  end.

Definition d_one (m : mnem) (w : width) (x : option operand) : option ins :=
  do a <- x; Some (mkIns m w [a]).
Definition d_fp (m : mnem) (x : xmm) (y : xm_operand) : option ins := d_two m W64 (d_xmm x) (d_xm y).

Definition denote (i : inst) : option ins :=
  match i with
  | ILabel _ | IF64 _ | II64 _ => None
  | IMovq a b => d_movq a b
  | IMovl a b => d_alu Mov W32 a b
  | IMovw a b => d_alu Mov W16 a b
  | IMovb a b => d_alu Mov W8 a b
  | IMovsxl a b => d_two (Movsx W32) W64 (d_reg W64 a) (d_rm W32 b)
  | IMovzxw a b => d_two (Movzx W16) W64 (d_reg W64 a) (d_rm W16 b)
  | IMovsxw a b => d_two (Movsx W16) W64 (d_reg W64 a) (d_rm W16 b)
  | IMovzxb a b => d_two (Movzx W8) W64 (d_reg W64 a) (d_rm W8 b)
  | IMovsxb a b => d_two (Movsx W8) W64 (d_reg W64 a) (d_rm W8 b)
  | IAdd s a b => d_alu (Alu ADD) (width_of s) a b
  | ISub s a b => d_alu (Alu SUB) (width_of s) a b
  | IAdc s a b => d_alu (Alu ADC) (width_of s) a b
  | ISbb s a b => d_alu (Alu SBB) (width_of s) a b
  | IAnd s a b => d_alu (Alu AND) (width_of s) a b
  | IOr s a b => d_alu (Alu OR) (width_of s) a b
  | IXor s a b => d_alu (Alu XOR) (width_of s) a b
  | ICmp s a b => d_alu (Alu CMP) (width_of s) a b
  | IXchg s a b =>
      do _ <- guard (negb (is_mem_rm a && is_mem_rm b));
      d_two Xchg (width_of s) (d_rm (width_of s) a) (d_rm (width_of s) b)
  | INegq a => d_one (Unary NEG) W64 (d_rm W64 a)
  | IShl s a b => d_shift SHL (width_of s) a b
  | ISal s a b => d_shift SHL (width_of s) a b
  | IShr s a b => d_shift SHR (width_of s) a b
  | ISar s a b => d_shift SAR (width_of s) a b
  | IRol s a b => d_shift ROL (width_of s) a b
  | IRor s a b => d_shift ROR (width_of s) a b
  | IImul (RmiReg a) (RmiReg b) => d_two Imul W64 (d_reg W64 a) (d_reg W64 b)
  | IImul (RmiReg a) (RmiInd b) => d_two Imul W64 (d_reg W64 a) (d_mem b)
  | IImul _ _ => None
  | IIdiv a => d_one (Unary IDIV) W64 (d_rm W64 a)
  | IIdivl a => d_one (Unary IDIV) W32 (d_rm W32 a)
  | IDiv a => d_one (Unary DIV) W64 (d_rm W64 a)
  | IDivl a => d_one (Unary DIV) W32 (d_rm W32 a)
  | ILea (RmReg r) (RmInd m) => d_two Lea W64 (d_reg W64 r) (d_mem m)
  | ILea _ _ => None
  | ITestq a b => d_two Test W64 (d_rm W64 a) (d_ri W64 b)
  | ITestb a b => d_two Test W8 (d_rm W8 a) (d_ri W8 b)
  | ISetcc c a => d_one (Setcc (cc_of c)) W8 (d_rm W8 a)
  | ICmovcc s c a b => d_two (Cmovcc (cc_of c)) (width_of s) (d_reg (width_of s) a) (d_rm (width_of s) b)
  | ICqo => Some (mkIns SignRdx W64 [])
  | ICdq => Some (mkIns SignRdx W32 [])
  | IMovsd a b =>
      do _ <- guard (negb (is_mem_xm a && is_mem_xm b));
      d_two (MovF SD) W64 (d_xm a) (d_xm b)
  | IAddsd a b => d_fp (Fp FADD SD) a b
  | ISubsd a b => d_fp (Fp FSUB SD) a b
  | IMulsd a b => d_fp (Fp FMUL SD) a b
  | IDivsd a b => d_fp (Fp FDIV SD) a b
  | IMinsd a b => d_fp (Fp FMIN SD) a b
  | IMaxsd a b => d_fp (Fp FMAX SD) a b
  | ISqrtsd a b => d_fp (Fp FSQRT SD) a b
  | ISqrtpd a b => d_fp (Fp FSQRT PD) a b
  | IXorps a b => d_fp (Fp FXOR PS) a b
  | IAndpd a b => d_fp (Fp FAND PD) a b
  | IXorpd a b => d_fp (Fp FXOR PD) a b
  | IUComIsd a b => d_fp (Ucomi SD) a b
  | IRoundpd a b e =>
      do x <- d_xmm a; do y <- d_xm b;
      do _ <- guard ((0 <=? val e) && (val e <=? 255));
      Some (mkIns Roundpd W64 [x; y; OImm (val e)])
  | ICvtsi2sdq a b => d_two (Cvtsi2f SD) W64 (d_xmm a) (d_rm W64 b)
  | ICvttsd2siq a b => d_two (Cvttf2si SD) W64 (d_reg W64 a) (d_xm b)
  | IPushq a => d_one Push W64 (d_rm W64 a)
  | IPopq a => d_one Pop W64 (d_rm W64 a)
  | IJmp (DestDisp _) => None
  | IJmp d => d_dest Jmp d
  | ICall d => d_dest Call d
  | IJcc c l => Some (mkIns (Jcc (cc_of c)) W64 [ORel (rel l)])
  | ILeave => Some (mkIns Leave W64 [])
  | IRet => Some (mkIns Ret W64 [])
  | ISyscall => Some (mkIns Syscall W64 [])
  | IInt3 => Some (mkIns Int3 W64 [])
  | ILzcnt s a b => d_two Lzcnt (width_of s) (d_reg (width_of s) a) (d_rm (width_of s) b)
  | ITzcnt s a b => d_two Tzcnt (width_of s) (d_reg (width_of s) a) (d_rm (width_of s) b)
  | IPopcnt s a b => d_two Popcnt (width_of s) (d_reg (width_of s) a) (d_rm (width_of s) b)
  end.
End Denote.

(** Instructions with the same effect: xchg is symmetric in its operands, and
    exchanging the whole of rax with itself is nop. *)
Inductive same_ins : ins -> ins -> Prop :=
| same_refl x : same_ins x x
| same_xchg w a b : same_ins (mkIns Xchg w [a; b]) (mkIns Xchg w [b; a])
| same_nop w' : same_ins (mkIns Xchg W64 [OReg W64 0; OReg W64 0]) (mkIns Nop w' []).

(** ** Operands of an instruction *)
Definition rm_regs (o : rm_operand) : list register := match o with RmReg r => [r] | _ => [] end.
Definition rm_mems (o : rm_operand) : list ind_addr := match o with RmInd a => [a] | _ => [] end.
Definition rmi_regs (o : rmi_operand) : list register := match o with RmiReg r => [r] | _ => [] end.
Definition rmi_mems (o : rmi_operand) : list ind_addr := match o with RmiInd a => [a] | _ => [] end.
Definition ri_regs (o : ri_operand) : list register := match o with RiReg r => [r] | _ => [] end.
Definition xm_xmms (o : xm_operand) : list expr := match o with XmXmm e => [e] | _ => [] end.
Definition xm_mems (o : xm_operand) : list ind_addr := match o with XmInd a => [a] | _ => [] end.
Definition mov_regs (o : mov_operand) : list register := match o with MovReg r => [r] | _ => [] end.
Definition mov_xmms (o : mov_operand) : list expr := match o with MovXmm e => [e] | _ => [] end.
Definition mov_mems (o : mov_operand) : list ind_addr := match o with MovInd a => [a] | _ => [] end.

(** register operands, xmm operands, memory operands of an instruction *)
Definition operands (i : inst) : list register * list expr * list ind_addr :=
  match i with
  | ILabel _ | IF64 _ | II64 _ | ICqo | ICdq | ILeave | IRet | ISyscall | IInt3 | IJcc _ _ => ([], [], [])
  | IMovq a b => (mov_regs a ++ mov_regs b, mov_xmms a ++ mov_xmms b, mov_mems a ++ mov_mems b)
  | IMovl a b | IMovw a b | IMovb a b => (rm_regs a ++ rmi_regs b, [], rm_mems a ++ rmi_mems b)
  | IAdd _ a b | ISub _ a b | IAdc _ a b | ISbb _ a b | IAnd _ a b | IOr _ a b | IXor _ a b | ICmp _ a b =>
      (rm_regs a ++ rmi_regs b, [], rm_mems a ++ rmi_mems b)
  | IMovsxl a b | IMovzxw a b | IMovsxw a b | IMovzxb a b | IMovsxb a b
  | ICmovcc _ _ a b | ILzcnt _ a b | ITzcnt _ a b | IPopcnt _ a b => (a :: rm_regs b, [], rm_mems b)
  | IXchg _ a b | ILea a b => (rm_regs a ++ rm_regs b, [], rm_mems a ++ rm_mems b)
  | INegq a | IIdiv a | IIdivl a | IDiv a | IDivl a | ISetcc _ a | IPushq a | IPopq a => (rm_regs a, [], rm_mems a)
  | IShl _ a b | IShr _ a b | ISal _ a b | ISar _ a b | IRol _ a b | IRor _ a b
  | ITestq a b | ITestb a b => (rm_regs a ++ ri_regs b, [], rm_mems a)
  | IImul a b => (rmi_regs a ++ rmi_regs b, [], rmi_mems a ++ rmi_mems b)
  | IMovsd a b => ([], xm_xmms a ++ xm_xmms b, xm_mems a ++ xm_mems b)
  | IAddsd a b | ISubsd a b | IMulsd a b | IDivsd a b | IXorps a b | IUComIsd a b | IMinsd a b | IMaxsd a b
  | IAndpd a b | IXorpd a b | IRoundpd a b _ | ISqrtpd a b | ISqrtsd a b => ([], a :: xm_xmms b, xm_mems b)
  | ICvtsi2sdq a b => (rm_regs b, [a], rm_mems b)
  | ICvttsd2siq a b => ([a], xm_xmms b, xm_mems b)
  | IJmp d | ICall d =>
      match d with DestReg n => ([RReg n], [], []) | DestInd a => ([], [], [a]) | _ => ([], [], []) end
  end.
Definition regs_of (i : inst) := fst (fst (operands i)).
Definition xmms_of (i : inst) := snd (fst (operands i)).
Definition mems_of (i : inst) := snd (operands i).

Definition reg_exprs (r : register) : list expr := match r with RReg _ => [] | RExpr e => [e] end.
Definition disp_exprs (d : pdisp) : list expr := match d with PExpr _ e => [e] | _ => [] end.
Definition mem_exprs (a : ind_addr) : list expr :=
  reg_exprs (ia_base a) ++ match ia_scale a with PScaleNone => [] | PS1 _ r => reg_exprs r end ++ disp_exprs (ia_disp a).
Definition addr_exprs (i : inst) : list expr :=
  flat_map reg_exprs (regs_of i) ++ xmms_of i ++ flat_map mem_exprs (mems_of i).

(** Instructions other than label definitions and data directives. *)
Definition is_instr (i : inst) : bool := match i with ILabel _ | IF64 _ | II64 _ => false | _ => true end.

(** Labels an instruction refers to. *)
Definition label_of_disp (d : pdisp) : list string := match d with PLabel x => [x] | _ => [] end.
Definition inst_labels (i : inst) : list string :=
  flat_map (fun a => label_of_disp (ia_disp a)) (mems_of i) ++
  match i with IJmp (DestRel x) | ICall (DestRel x) | IJcc _ x => [x] | _ => [] end.

(** Register and xmm numbers are 0..15; memory operands are encodable:
    displacement in 32 bits, rip only without index, index not rsp. *)
Definition wf_operands (val : expr -> Z) (i : inst) : Prop :=
  Forall (fun r => is_gpr (reg_no val r) = true) (regs_of i) /\
  Forall (fun e => is_gpr (val e) = true) (xmms_of i) /\
  Forall (fun a => d_mem val (fun _ => 0) a <> None) (mems_of i).

