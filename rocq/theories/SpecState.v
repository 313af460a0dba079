(** Vocabulary of the property statements about assembling instructions: what was
    appended to the current page, how it reads, and which operands are ordinary. *)
From Verif Require Import Base ModelMem ModelSyntax ModelMacro SpecX86 SpecAsm.

(** Cursor of the selected page, and the address it stands for. *)
Definition cursor (s : jit) : Z := counter (pages s (cur s)).
Definition here (s : jit) : Z := base s + pidx (cur s) * PAGE_SIZE + cursor s.

(** [grows s s' bs]: [s'] is [s] with the bytes [bs] appended to the selected page
    and nothing else of the memory, the pages or the page selection changed.
    (The label table is the subject of separate statements.) *)
Record grows (s s' : jit) (bs : list Z) : Prop := mkGrows {
  gr_base : base s' = base s;
  gr_cur : cur s' = cur s;
  gr_cursor : counter (pages s' (cur s)) = cursor s + Z.of_nat (List.length bs);
  gr_room : counter (pages s' (cur s)) <= PAGE_SIZE;
  gr_page : constants (pages s' (cur s)) = constants (pages s (cur s)) /\ data (pages s' (cur s)) = data (pages s (cur s)) /\
            code_len (pages s' (cur s)) = code_len (pages s (cur s)) /\
            code_block_top (pages s' (cur s)) = code_block_top (pages s (cur s)) /\
            code_block (pages s' (cur s)) = code_block (pages s (cur s));
  gr_others : forall q, q <> cur s -> pages s' q = pages s q;
  gr_bytes : forall k b, nth_error bs k = Some b -> mem s' (here s + Z.of_nat k) = b;
  gr_frame : forall x, ~ (here s <= x < here s + Z.of_nat (List.length bs)) -> mem s' x = mem s x
}.

(** The bytes read as one instruction, equivalent to [x], whatever follows. *)
Definition reads_as (bs : list Z) (x : ins) : Prop :=
  exists y, same_ins x y /\ forall rest, decode (bs ++ rest) = Some (y, rest).

(** Effective address of a decoded memory operand, with [rf] the register file
    and [next] the address of the following instruction. *)
Definition ea (rf : Z -> Z) (next : Z) (a : maddr) : Z :=
  u64 ((match m_base a with None => 0 | Some (BReg n) => rf n | Some BRip => next end) +
       (match m_index a with None => 0 | Some (n, sc) => rf n * sc end) + m_disp a).
(** The address a written memory operand means: base + index*scale + displacement. *)
Section Written.
Variable val : expr -> Z.
Variable rel : string -> Z.
Definition written_disp (d : pdisp) : Z :=
  match d with PImm d => d | PExpr false e => val e | PExpr true e => - val e | PLabel x => rel x end.
Definition written_ea (rf : Z -> Z) (next : Z) (a : ind_addr) : Z :=
  u64 ((if reg_no val (ia_base a) =? 16 then next else rf (reg_no val (ia_base a))) +
       (match ia_scale a with PScaleNone => 0 | PS1 k r => rf (reg_no val r) * 2 ^ k end) +
       written_disp (ia_disp a)).
End Written.

(** Registers named by an operand position of 8 bits. *)
Definition byte_regs (i : inst) : list register :=
  match i with
  | IMovb a b | IAdd BYTE a b | ISub BYTE a b | IAdc BYTE a b | ISbb BYTE a b | IAnd BYTE a b | IOr BYTE a b | IXor BYTE a b
  | ICmp BYTE a b => rm_regs a ++ rmi_regs b
  | ITestb a b => rm_regs a ++ ri_regs b
  | ISetcc _ a => rm_regs a
  | IMovzxb _ b | IMovsxb _ b => rm_regs b
  | _ => []
  end.

(** The immediate of an instruction: the expression and the values the
    instruction can hold (movq to a register takes any 64-bit value). *)
Definition any_imm (_ : Z) : bool := true.
Definition rmi_imm (w : width) (b : rmi_operand) : option (expr * (Z -> bool)) :=
  match b with RmiImm e => Some (e, imm_ok w) | _ => None end.
Definition ri_imm (w : width) (b : ri_operand) : option (expr * (Z -> bool)) :=
  match b with RiImm e => Some (e, imm_ok w) | _ => None end.
Definition immediate (i : inst) : option (expr * (Z -> bool)) :=
  match i with
  | IMovq (MovReg _) (MovImm e _) => Some (e, any_imm)
  | IMovq (MovInd _) (MovImm e _) => Some (e, in_i32)
  | IMovl _ b => rmi_imm W32 b
  | IMovw _ b => rmi_imm W16 b
  | IMovb _ b => rmi_imm W8 b
  | IAdd s _ b | ISub s _ b | IAdc s _ b | ISbb s _ b | IAnd s _ b | IOr s _ b | IXor s _ b | ICmp s _ b =>
      rmi_imm (width_of s) b
  | ITestq _ b => ri_imm W64 b
  | ITestb _ b => ri_imm W8 b
  | IShl _ _ b | IShr _ _ b | ISal _ _ b | ISar _ _ b | IRol _ _ b | IRor _ _ b => ri_imm W8 b
  | ICall (DestDisp e) => Some (e, in_i32)
  | _ => None
  end.
(** How the CPU sees the value: shift counts modulo the operand size, call
    displacements as branch distances, everything else as it is. *)
Definition imm_operand (i : inst) (v : Z) : operand :=
  match i with
  | IShl s _ _ | IShr s _ _ | ISal s _ _ | ISar s _ _ | IRol s _ _ | IRor s _ _ =>
      OImm (v mod (match s with QWORD => 64 | _ => 32 end))
  | ICall _ => ORel v
  | _ => OImm v
  end.

(** ** Ordinary operands *)
Section Ordinary.
Variable ev : list tok -> env -> Z.
Variable r : env.
(** No register or displacement expression mentions a variable called [imm]. *)
Definition no_imm_var (i : inst) : Prop :=
  forall v e, In e (addr_exprs i) -> eval ev (env_set "imm" v r) e = eval ev r e.
(** The third operand of roundpd has Rust type u8. *)
Definition roundpd_u8 (i : inst) : Prop :=
  match i with IRoundpd _ _ e => 0 <= eval ev r e <= 255 | _ => True end.
(** An instruction whose registers exist and whose memory operand is encodable. *)
Definition ordinary (i : inst) : Prop :=
  is_instr i = true /\ wf_operands (eval ev r) i /\ no_imm_var i /\ roundpd_u8 i.
(** A shift or rotate count in a register is in cl. *)
Definition count_is_cl (i : inst) : Prop :=
  match i with
  | IShl _ _ (RiReg c) | IShr _ _ (RiReg c) | ISal _ _ (RiReg c) | ISar _ _ (RiReg c) | IRol _ _ (RiReg c) | IRor _ _ (RiReg c) =>
      reg_no (eval ev r) c = 1
  | _ => True
  end.
End Ordinary.

(** SSE instructions; every other instruction is a general-purpose one. *)
Definition is_sse (i : inst) : bool :=
  match i with
  | IMovsd _ _ | IAddsd _ _ | ISubsd _ _ | IMulsd _ _ | IDivsd _ _ | IXorps _ _ | IUComIsd _ _ | IMinsd _ _ | IMaxsd _ _
  | IAndpd _ _ | IXorpd _ _ | IRoundpd _ _ _ | ICvtsi2sdq _ _ | ICvttsd2siq _ _ | ISqrtpd _ _ | ISqrtsd _ _ => true
  | IMovq (MovXmm _) _ | IMovq _ (MovXmm _) => true
  | _ => false
  end.
Definition is_cvttsd2siq (i : inst) : bool := match i with ICvttsd2siq _ _ => true | _ => false end.
Definition label_disp (a : ind_addr) : bool := match ia_disp a with PLabel _ => true | _ => false end.
(** [roundpd xmm, [rip + label], imm]. *)
Definition is_roundpd_label (i : inst) : bool :=
  match i with IRoundpd _ (XmInd a) _ => label_disp a | _ => false end.
(** Word-sized arithmetic with an immediate operand. *)
Definition is_word_alu_imm (i : inst) : bool :=
  match i with
  | IAdd WORD _ (RmiImm _) | ISub WORD _ (RmiImm _) | IAdc WORD _ (RmiImm _) | ISbb WORD _ (RmiImm _) | IAnd WORD _ (RmiImm _)
  | IOr WORD _ (RmiImm _) | IXor WORD _ (RmiImm _) | ICmp WORD _ (RmiImm _) => true
  | _ => false
  end.

(** Label references: [new_refs s s' l ts]: the references to label [l] recorded
    between [s] and [s'] are [ts]. *)
Definition refs (s : jit) (l : label) : list target :=
  match nth_error (labels s) l with Some i => targets i | None => [] end.
Definition new_refs (s s' : jit) (l : label) (ts : list target) : Prop := refs s' l = refs s l ++ ts.
