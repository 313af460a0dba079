(** Specification: how the assembler takes operands that the machine does not have.
    [taken val i] is the instruction the assembler assembles instead of [i]:
    register numbers modulo 16, an index rsp left out, displacements modulo 2^32.
    For registers 0..15 and encodable memory operands it names the same
    instruction as [i]. *)
From Verif Require Import Base ModelSyntax SpecX86 SpecAsm.

Section Taken.
Variable val : expr -> Z.

(** Numbers that are 16 modulo 256 stand for rip, which no register operand can be. *)
Definition reg_taken (n : Z) : Z := if n mod 256 =? 16 then 16 else n mod 16.
Definition taken_reg (r : register) : register := RReg (reg_taken (reg_no val r)).
Definition taken_xmm (e : expr) : expr := ELit (reg_taken (val e)).
(** An index register number counts modulo 256, and 16 and above are refused; so
    does the number of a shift count, which must then be 1 (cl). *)
Definition taken_index (r : register) : register := RReg (reg_no val r mod 256).

Definition wrap32 (v : Z) : Z := let w := v mod 4294967296 in if w <? 2147483648 then w else w - 4294967296.
Definition taken_disp (d : pdisp) : pdisp :=
  match d with
  | PImm d => PImm (wrap32 d)
  | PExpr negated e => PImm (wrap32 (if negated then - val e else val e))
  | PLabel l => PLabel l
  end.
(** Index rsp is left out, unless the base is rip, which takes no index. *)
Definition taken_scale (base : Z) (sc : pscale) : pscale :=
  match sc with
  | PScaleNone => PScaleNone
  | PS1 k r => if (reg_no val r mod 256 =? 4) && negb (base =? 16) then PScaleNone else PS1 k (taken_index r)
  end.
Definition taken_mem (a : ind_addr) : ind_addr :=
  let b := reg_taken (reg_no val (ia_base a)) in
  mkInd (RReg b) (taken_scale b (ia_scale a)) (taken_disp (ia_disp a)).
Definition taken_rm (o : rm_operand) : rm_operand :=
  match o with RmReg r => RmReg (taken_reg r) | RmInd a => RmInd (taken_mem a) end.
Definition taken_rmi (o : rmi_operand) : rmi_operand :=
  match o with RmiImm e => RmiImm e | RmiReg r => RmiReg (taken_reg r) | RmiInd a => RmiInd (taken_mem a) end.
Definition taken_ri (o : ri_operand) : ri_operand :=
  match o with RiImm e => RiImm e | RiReg r => RiReg (taken_reg r) end.
Definition taken_count (o : ri_operand) : ri_operand :=
  match o with RiImm e => RiImm e | RiReg r => RiReg (taken_index r) end.
Definition taken_xm (o : xm_operand) : xm_operand :=
  match o with XmXmm e => XmXmm (taken_xmm e) | XmInd a => XmInd (taken_mem a) end.
Definition taken_mov (o : mov_operand) : mov_operand :=
  match o with
  | MovImm e s => MovImm e s
  | MovReg r => MovReg (taken_reg r)
  | MovXmm e => MovXmm (taken_xmm e)
  | MovInd a => MovInd (taken_mem a)
  end.
Definition taken_dest (d : dest) : dest :=
  match d with
  | DestReg n => DestReg (reg_taken n)
  | DestInd a => DestInd (taken_mem a)
  | d => d
  end.

Definition taken (i : inst) : inst :=
  match i with
  | ILabel _ | IF64 _ | II64 _ | ICqo | ICdq | ILeave | IRet | ISyscall | IInt3 | IJcc _ _ => i
  | IMovq a b => IMovq (taken_mov a) (taken_mov b)
  | IMovl a b => IMovl (taken_rm a) (taken_rmi b)
  | IMovw a b => IMovw (taken_rm a) (taken_rmi b)
  | IMovb a b => IMovb (taken_rm a) (taken_rmi b)
  | IMovsxl a b => IMovsxl (taken_reg a) (taken_rm b)
  | IMovzxw a b => IMovzxw (taken_reg a) (taken_rm b)
  | IMovsxw a b => IMovsxw (taken_reg a) (taken_rm b)
  | IMovzxb a b => IMovzxb (taken_reg a) (taken_rm b)
  | IMovsxb a b => IMovsxb (taken_reg a) (taken_rm b)
  | IAdd s a b => IAdd s (taken_rm a) (taken_rmi b)
  | ISub s a b => ISub s (taken_rm a) (taken_rmi b)
  | IAdc s a b => IAdc s (taken_rm a) (taken_rmi b)
  | ISbb s a b => ISbb s (taken_rm a) (taken_rmi b)
  | IAnd s a b => IAnd s (taken_rm a) (taken_rmi b)
  | IOr s a b => IOr s (taken_rm a) (taken_rmi b)
  | IXor s a b => IXor s (taken_rm a) (taken_rmi b)
  | ICmp s a b => ICmp s (taken_rm a) (taken_rmi b)
  | IXchg s a b => IXchg s (taken_rm a) (taken_rm b)
  | INegq a => INegq (taken_rm a)
  | IShl s a b => IShl s (taken_rm a) (taken_count b)
  | IShr s a b => IShr s (taken_rm a) (taken_count b)
  | ISal s a b => ISal s (taken_rm a) (taken_count b)
  | ISar s a b => ISar s (taken_rm a) (taken_count b)
  | IRol s a b => IRol s (taken_rm a) (taken_count b)
  | IRor s a b => IRor s (taken_rm a) (taken_count b)
  | IImul a b => IImul (taken_rmi a) (taken_rmi b)
  | IIdiv a => IIdiv (taken_rm a)
  | IIdivl a => IIdivl (taken_rm a)
  | IDiv a => IDiv (taken_rm a)
  | IDivl a => IDivl (taken_rm a)
  | ILea a b => ILea (taken_rm a) (taken_rm b)
  | ITestq a b => ITestq (taken_rm a) (taken_ri b)
  | ITestb a b => ITestb (taken_rm a) (taken_ri b)
  | ISetcc c a => ISetcc c (taken_rm a)
  | ICmovcc s c a b => ICmovcc s c (taken_reg a) (taken_rm b)
  | IMovsd a b => IMovsd (taken_xm a) (taken_xm b)
  | IAddsd a b => IAddsd (taken_xmm a) (taken_xm b)
  | ISubsd a b => ISubsd (taken_xmm a) (taken_xm b)
  | IMulsd a b => IMulsd (taken_xmm a) (taken_xm b)
  | IDivsd a b => IDivsd (taken_xmm a) (taken_xm b)
  | IMinsd a b => IMinsd (taken_xmm a) (taken_xm b)
  | IMaxsd a b => IMaxsd (taken_xmm a) (taken_xm b)
  | ISqrtsd a b => ISqrtsd (taken_xmm a) (taken_xm b)
  | ISqrtpd a b => ISqrtpd (taken_xmm a) (taken_xm b)
  | IXorps a b => IXorps (taken_xmm a) (taken_xm b)
  | IAndpd a b => IAndpd (taken_xmm a) (taken_xm b)
  | IXorpd a b => IXorpd (taken_xmm a) (taken_xm b)
  | IUComIsd a b => IUComIsd (taken_xmm a) (taken_xm b)
  | IRoundpd a b e => IRoundpd (taken_xmm a) (taken_xm b) e
  | ICvtsi2sdq a b => ICvtsi2sdq (taken_xmm a) (taken_rm b)
  | ICvttsd2siq a b => ICvttsd2siq (taken_reg a) (taken_xm b)
  | IPushq a => IPushq (taken_rm a)
  | IPopq a => IPopq (taken_rm a)
  | IJmp d => IJmp (taken_dest d)
  | ICall d => ICall (taken_dest d)
  | ILzcnt s a b => ILzcnt s (taken_reg a) (taken_rm b)
  | ITzcnt s a b => ITzcnt s (taken_reg a) (taken_rm b)
  | IPopcnt s a b => IPopcnt s (taken_reg a) (taken_rm b)
  end.

(** The instruction the bytes of [i] read as, [rel x] being the displacement to
    label [x]; None if [i] is refused.  [cvttsd2siq] is assembled as the 32-bit
    conversion (see C02). *)
Definition assembled (rel : string -> Z) (i : inst) : option ins :=
  match i with
  | ICvttsd2siq a b => d_two (Cvttf2si SD) W32 (d_reg val W32 (taken_reg a)) (d_xm val rel (taken_xm b))
  | _ => denote val rel (taken i)
  end.

(** A label operand of roundpd addresses the byte after the label. *)
Definition slip (i : inst) : Z :=
  match i with IRoundpd _ (XmInd (mkInd _ _ (PLabel _))) _ => 1 | _ => 0 end.
(** The instruction the bytes of [i] read as once its labels are linked, [rel x]
    being the displacement from the next instruction to label [x]. *)
Definition as_linked (rel : string -> Z) (i : inst) : option ins := assembled (fun x => rel x + slip i) i.
(** [i] is a label definition, a data directive or, as taken, an x86 instruction. *)
Definition taken_as_ins (i : inst) : Prop := is_instr i = true -> assembled (fun _ => 0) i <> None.
End Taken.

(** Scale factors written in a memory operand are 1, 2, 4 or 8 (2^0 .. 2^3). *)
Definition scales_written (i : inst) : Prop :=
  Forall (fun a => match ia_scale a with PScaleNone => True | PS1 k _ => 0 <= k <= 3 end) (mems_of i).
