(** Model of monoasm_macro/src/asm.rs and monoasm_macro/src/lib.rs: the Rust code
    that [monoasm!] expands to ([gcode]) and its execution.

    [compile] returns [None] where the macro itself panics (the program does not
    compile); [exec] runs the generated code against a [JitMemory]. *)
From Verif Require Import Base ModelMem ModelEnc ModelSyntax.

(** ** Generated code *)

(** [Reg::from(e)]: the generated register expression (parse.rs 132-140; for an
    xmm operand asm.rs writes [Reg::from(#op)] itself). *)
Definition greg := expr.
Definition greg_of (r : register) : greg :=
  match r with RReg n => ELit n | RExpr e => e end.

(** Generated [Rm] values: [Rm::reg(..)] and [Rm::ind(base, disp, scale)]
    (inst.rs 542-550, 604-613, 779-787, 845-855; parse.rs 346-351, 359-366, 453-468).
    Displacements are [Disp::from_disp(..)] / [Disp::from_label(..)]. *)
Inductive grm := GRmReg (g : greg) | GRmInd (a : ind_addr).
(** Immediate arguments: [Imm::None], [Imm::B(imm)], [Imm::W(imm)], [Imm::L(imm)] (monoasm/src/lib.rs 133-139). *)
Inductive gimm := GImmNone | GImmB | GImmW | GImmL.

(** Calls on the local variable [jit] (quoted in asm.rs 5-974; the functions are those of jit_memory.rs cited in ModelMem
    and ModelEnc). *)
Inductive gcall :=
| GBindLabel (ident : string)
| GEmit (bs : list Z)
| GEmitb (b : Z)
| GEmitbExpr (e : expr)        (* jit.emitb(#op3) *)
| GEmitqLit (v : Z)            (* jit.emitq(#i as u64) *)
| GEmitl (v : Z)               (* jit.emitl(0) *)
| GEmitbImm | GEmitwImm | GEmitlImm | GEmitqImm   (* jit.emitX(imm as uN) *)
| GEncO (op : Z) (g : greg)
| GEncOi (op : Z) (g : greg)
| GEncOiByte (op : Z) (g : greg)
| GEncRexwO (op : Z) (g : greg)
| GEncMi (op : Z) (r : grm) (i : gimm)
| GEncRexwMi (op : Z) (r : grm) (i : gimm)
| GEncMiByte (op : Z) (r : grm) (i : gimm)
| GEncMr (op : list Z) (g : greg) (r : grm)
| GEncMrByte (op : list Z) (g : greg) (r : grm)
| GEncRexwMr (op : list Z) (g : greg) (r : grm)
| GEncMByte (op : list Z) (r : grm)
| GEncD (op : list Z) (ident : string)
| GEncDigit (op : list Z) (r : grm) (digit : Z)
| GEncDigitImm (op : list Z) (r : grm) (digit : Z) (i : gimm)
| GEncDigitImmByte (op : list Z) (op_al : Z) (r : grm) (digit : Z) (i : gimm)
| GEncRexwDigit (op : list Z) (r : grm) (digit : Z) (i : gimm)
| GSaveReloc (ident : string) (offset : Z).

(** Conditions of generated [if]s: asm.rs 68, 83, 101, 116, 402, 438, 454, 480, 496, 527, 543, 608-610, 667-669, 727-729, 792, 883, 911
    (try_from), 289 (call), 36-42, 69, 102 (rax), 895, 923 (cl), 881, 909 (imm == 1). *)
Inductive gcond :=
| CTry8 | CTry16 | CTry32      (* if let Ok(imm) = iN::try_from(imm) *)
| CTry32Of (e : expr)          (* if let Ok(imm) = i32::try_from(#e as i64) *)
| CIsRax (g : greg)            (* if #reg.is_rax(); also: if #r == Reg::from(0) *)
| CNotCl (g : greg)            (* if !#reg.is_cl() *)
| CImmIs1.                     (* if imm == 1 *)

(** A generated block: a sequence of statements (the token stream that [compile], asm.rs 5-346, returns). *)
Inductive gcode :=
| GNil
| GDo (c : gcall) (k : gcode)
| GLetImm (e : expr) (k : gcode)              (* let imm = (#i) as i64; *)
| GIf (c : gcond) (t e k : gcode)
| GPanic.                                      (* panic!(..) *)

Definition g1 (c : gcall) : gcode := GDo c GNil.
Definition g2 (c d : gcall) : gcode := GDo c (g1 d).

(** ** Code generation (asm.rs) *)

(** ToTokens of operands (inst.rs 542-550). *)
Definition grm_of_rm (o : rm_operand) : grm :=
  match o with RmReg r => GRmReg (greg_of r) | RmInd a => GRmInd a end.
(** inst.rs 604-613: an immediate is [unreachable!()] at expansion time. *)
Definition grm_of_rmi (o : rmi_operand) : option grm :=
  match o with RmiImm _ => None | RmiReg r => Some (GRmReg (greg_of r)) | RmiInd a => Some (GRmInd a) end.
Definition grm_of_xm (o : xm_operand) : grm :=
  match o with XmXmm e => GRmReg e | XmInd a => GRmInd a end.

(** asm.rs 348-428 [movq].  Arms are in source order.  [let op1/op2 = Rm::reg(..)]
    and the unused [let rm_op = ..] are inlined. *)
Definition movq (op1 op2 : mov_operand) : option gcode :=
  match op1 with
  | MovXmm x1 =>
      match op2 with
      | MovImm _ _ => None
      | MovReg r2 => Some (g2 (GEmitb 0x66) (GEncRexwMr [0x0f; 0x6e] x1 (GRmReg (greg_of r2))))
      | MovXmm x2 => Some (g2 (GEmitb 0xf3) (GEncMr [0x0f; 0x7e] x1 (GRmReg x2)))
      | MovInd a2 => Some (g2 (GEmitb 0xf3) (GEncMr [0x0f; 0x7e] x1 (GRmInd a2)))
      end
  | MovImm _ _ => None
  | MovReg r1 =>
      match op2 with
      | MovImm i size =>
          (* both branches generate the same calls; a size other than QWORD fails assert_eq! *)
          match size with
          | Some QWORD | None =>
              Some (GLetImm i (g2 (GEncRexwO 0xb8 (greg_of r1)) GEmitqImm))
          | Some _ => None
          end
      | MovReg r2 => Some (g1 (GEncRexwMr [0x89] (greg_of r2) (GRmReg (greg_of r1))))
      | MovXmm x2 => Some (g2 (GEmitb 0x66) (GEncRexwMr [0x0f; 0x7e] x2 (GRmReg (greg_of r1))))
      | MovInd a2 => Some (g1 (GEncRexwMr [0x8b] (greg_of r1) (GRmInd a2)))
      end
  | MovInd a1 =>
      match op2 with
      | MovImm i None =>
          Some (GLetImm i (GIf CTry32 (g1 (GEncRexwMi 0xc7 (GRmInd a1) GImmL)) GPanic GNil))
      | MovImm _ (Some _) => None
      | MovReg r2 => Some (g1 (GEncRexwMr [0x89] (greg_of r2) (GRmInd a1)))
      | MovXmm x2 => Some (g2 (GEmitb 0x66) (GEncMr [0x0f; 0xd6] x2 (GRmInd a1)))
      | MovInd _ => None
      end
  end.

(** asm.rs 430-471 [movl]. *)
Definition movl (op1 : rm_operand) (op2 : rmi_operand) : option gcode :=
  match op1, op2 with
  | RmReg r, RmiImm i =>
      Some (GLetImm i (GIf CTry32 (g2 (GEncOi 0xb8 (greg_of r)) GEmitlImm) GPanic GNil))
  | RmInd a, RmiImm i =>
      Some (GLetImm i (GIf CTry32 (g1 (GEncMi 0xc7 (GRmInd a) GImmL)) GPanic GNil))
  | _, RmiReg r2 => Some (g1 (GEncMr [0x89] (greg_of r2) (grm_of_rm op1)))
  | RmReg r, RmiInd a => Some (g1 (GEncMr [0x8b] (greg_of r) (GRmInd a)))
  | RmInd _, RmiInd _ => None
  end.

(** asm.rs 473-518 [movw]. *)
Definition movw (op1 : rm_operand) (op2 : rmi_operand) : option gcode :=
  match op1, op2 with
  | RmReg r, RmiImm i =>
      Some (GLetImm i (GIf CTry16
        (GDo (GEmitb 0x66) (g2 (GEncOi 0xb8 (greg_of r)) GEmitwImm)) GPanic GNil))
  | RmInd a, RmiImm i =>
      Some (GLetImm i (GIf CTry16
        (g2 (GEmitb 0x66) (GEncMi 0xc7 (GRmInd a) GImmW)) GPanic GNil))
  | _, RmiReg r2 => Some (g2 (GEmitb 0x66) (GEncMr [0x89] (greg_of r2) (grm_of_rm op1)))
  | RmReg r, RmiInd a => Some (g2 (GEmitb 0x66) (GEncMr [0x8b] (greg_of r) (GRmInd a)))
  | RmInd _, RmiInd _ => None
  end.

(** asm.rs 520-564 [movb]. *)
Definition movb (op1 : rm_operand) (op2 : rmi_operand) : option gcode :=
  match op1, op2 with
  | RmReg r, RmiImm i =>
      Some (GLetImm i (GIf CTry8 (g2 (GEncOiByte 0xb0 (greg_of r)) GEmitbImm) GPanic GNil))
  | RmInd a, RmiImm i =>
      Some (GLetImm i (GIf CTry8 (g1 (GEncMiByte 0xc6 (GRmInd a) GImmB)) GPanic GNil))
  | _, RmiReg r2 => Some (g1 (GEncMrByte [0x88] (greg_of r2) (grm_of_rm op1)))
  | RmReg r, RmiInd a => Some (g1 (GEncMrByte [0x8a] (greg_of r) (GRmInd a)))
  | RmInd _, RmiInd _ => None
  end.

(** asm.rs 582-639 [binary_opq]. *)
Definition binary_opq (op_mr digit : Z) (op1 : rm_operand) (op2 : rmi_operand) : option gcode :=
  let op_rm := op_mr + 2 in
  match op1, op2 with
  | _, RmiImm i =>
      Some (GLetImm i
        (GIf CTry8 (g1 (GEncRexwDigit [0x83] (grm_of_rm op1) digit GImmB))
          (GIf CTry32 (g1 (GEncRexwDigit [0x81] (grm_of_rm op1) digit GImmL)) GPanic GNil) GNil))
  | _, RmiReg r => Some (g1 (GEncRexwMr [op_mr] (greg_of r) (grm_of_rm op1)))
  | RmReg r, RmiInd a => Some (g1 (GEncRexwMr [op_rm] (greg_of r) (GRmInd a)))
  | RmInd _, RmiInd _ => None
  end.

(** asm.rs 641-698 [binary_opl]. *)
Definition binary_opl (op_mr digit : Z) (op1 : rm_operand) (op2 : rmi_operand) : option gcode :=
  let op_rm := op_mr + 2 in
  match op1, op2 with
  | _, RmiImm i =>
      Some (GLetImm i
        (GIf CTry8 (g1 (GEncDigitImm [0x83] (grm_of_rm op1) digit GImmB))
          (GIf CTry32 (g1 (GEncDigitImm [0x81] (grm_of_rm op1) digit GImmL)) GPanic GNil) GNil))
  | _, RmiReg r => Some (g1 (GEncMr [op_mr] (greg_of r) (grm_of_rm op1)))
  | RmReg r, RmiInd a => Some (g1 (GEncMr [op_rm] (greg_of r) (GRmInd a)))
  | RmInd _, RmiInd _ => None
  end.

(** asm.rs 700-764 [binary_opw].  The 0x66 prefix is emitted before the immediate is checked. *)
Definition binary_opw (op_mr digit : Z) (op1 : rm_operand) (op2 : rmi_operand) : option gcode :=
  let op_rm := op_mr + 2 in
  match op1, op2 with
  | _, RmiImm i =>
      Some (GLetImm i (GDo (GEmitb 0x66)
        (GIf CTry8 (g1 (GEncDigitImm [0x83] (grm_of_rm op1) digit GImmB))
          (GIf CTry16 (g1 (GEncDigitImm [0x81] (grm_of_rm op1) digit GImmW)) GPanic GNil) GNil)))
  | _, RmiReg r => Some (g2 (GEmitb 0x66) (GEncMr [op_mr] (greg_of r) (grm_of_rm op1)))
  | RmReg r, RmiInd a => Some (g2 (GEmitb 0x66) (GEncMr [op_rm] (greg_of r) (GRmInd a)))
  | RmInd _, RmiInd _ => None
  end.

(** asm.rs 766-821 [binary_opb]. *)
Definition binary_opb (op_mr digit : Z) (op1 : rm_operand) (op2 : rmi_operand) : option gcode :=
  let op_rm := op_mr + 2 in
  match op1, op2 with
  | _, RmiImm i =>
      let op_al := op_mr + 4 in
      Some (GLetImm i
        (GIf CTry8 (g1 (GEncDigitImmByte [0x80] op_al (grm_of_rm op1) digit GImmB)) GPanic GNil))
  | _, RmiReg r => Some (g1 (GEncMrByte [op_mr] (greg_of r) (grm_of_rm op1)))
  | RmReg r, RmiInd a => Some (g1 (GEncMrByte [op_rm] (greg_of r) (GRmInd a)))
  | RmInd _, RmiInd _ => None
  end.

(** asm.rs 566-580 [binary_op]. *)
Definition binary_op (sz : opsize) (op_mr digit : Z) (op1 : rm_operand) (op2 : rmi_operand) : option gcode :=
  match sz with
  | QWORD => binary_opq op_mr digit op1 op2
  | DWORD => binary_opl op_mr digit op1 op2
  | WORD => binary_opw op_mr digit op1 op2
  | BYTE => binary_opb (op_mr - 1) digit op1 op2
  end.

(** asm.rs 823-842 [divide_op]. *)
Definition divide_op (sz : opsize) (is_signed : bool) (op : rm_operand) : option gcode :=
  let digit := if is_signed then 7 else 6 in
  match sz with
  | QWORD => Some (g1 (GEncRexwDigit [0xf7] (grm_of_rm op) digit GImmNone))
  | DWORD => Some (g1 (GEncDigit [0xf7] (grm_of_rm op) digit))
  | _ => None
  end.

(** asm.rs 866-932 [shift_op]. *)
Definition shift_op (sz : opsize) (digit : Z) (op1 : rm_operand) (op2 : ri_operand) : option gcode :=
  match sz with
  | QWORD =>
      match op2 with
      | RiImm i =>
          Some (GLetImm i
            (GIf CImmIs1 (g1 (GEncRexwDigit [0xd1] (grm_of_rm op1) digit GImmNone))
              (GIf CTry8 (g1 (GEncRexwDigit [0xc1] (grm_of_rm op1) digit GImmB)) GPanic GNil) GNil))
      | RiReg r =>
          Some (GIf (CNotCl (greg_of r)) GPanic GNil
                 (g1 (GEncRexwDigit [0xd3] (grm_of_rm op1) digit GImmNone)))
      end
  | DWORD =>
      match op2 with
      | RiImm i =>
          Some (GLetImm i
            (GIf CImmIs1 (g1 (GEncDigit [0xd1] (grm_of_rm op1) digit))
              (GIf CTry8 (g1 (GEncDigitImm [0xc1] (grm_of_rm op1) digit GImmB)) GPanic GNil) GNil))
      | RiReg r =>
          Some (GIf (CNotCl (greg_of r)) GPanic GNil
                 (g1 (GEncDigit [0xd3] (grm_of_rm op1) digit)))
      end
  | WORD | BYTE => None
  end.

(** asm.rs 934-940 [binary_sd_op]. *)
Definition binary_sd_op (operand : Z) (op1 : xmm) (op2 : xm_operand) : option gcode :=
  Some (g2 (GEmitb 0xf2) (GEncMr [0x0f; operand] op1 (grm_of_xm op2))).

(** asm.rs 942-956 [push_pop]. *)
Definition push_pop (opcode_r : Z) (opcode_m : Z * Z) (op : rm_operand) : option gcode :=
  match op with
  | RmReg r => Some (g1 (GEncO opcode_r (greg_of r)))
  | RmInd a => Some (g1 (GEncDigit [fst opcode_m] (GRmInd a) (snd opcode_m)))
  end.

(** asm.rs 958-974 [count_op]. *)
Definition count_op (sz : opsize) (opcode : Z) (op1 : register) (op2 : rm_operand) : option gcode :=
  match sz with
  | QWORD => Some (g2 (GEmitb 0xf3) (GEncRexwMr [0x0f; opcode] (greg_of op1) (grm_of_rm op2)))
  | DWORD => Some (g2 (GEmitb 0xf3) (GEncMr [0x0f; opcode] (greg_of op1) (grm_of_rm op2)))
  | _ => None
  end.

(** asm.rs 33-59 [Xchg]. *)
Definition xchg (sz : opsize) (op1 op2 : rm_operand) : option gcode :=
  match sz with
  | QWORD =>
      match op1, op2 with
      | RmReg r1, RmReg r2 =>
          Some (GIf (CIsRax (greg_of r1))
                  (GIf (CIsRax (greg_of r2)) (g1 (GEmitb 0x90)) (g1 (GEncRexwO 0x90 (greg_of r2))) GNil)
                  (GIf (CIsRax (greg_of r2)) (g1 (GEncRexwO 0x90 (greg_of r1)))
                     (g1 (GEncRexwMr [0x87] (greg_of r2) (grm_of_rm op1))) GNil) GNil)
      | _, RmReg r2 => Some (g1 (GEncRexwMr [0x87] (greg_of r2) (grm_of_rm op1)))
      | RmReg r1, RmInd a2 => Some (g1 (GEncRexwMr [0x87] (greg_of r1) (GRmInd a2)))
      | RmInd _, RmInd _ => None
      end
  | _ => None
  end.

(** asm.rs 61-93 [Testq]. *)
Definition testq (op1 : rm_operand) (op2 : ri_operand) : option gcode :=
  match op2 with
  | RiImm i =>
      match op1 with
      | RmReg r =>
          Some (GLetImm i (GIf CTry32
            (GIf (CIsRax (greg_of r)) (g2 (GEmit [0x48; 0xa9]) GEmitlImm)
              (g1 (GEncRexwMi 0xf7 (grm_of_rm op1) GImmL)) GNil) GPanic GNil))
      | RmInd _ =>
          Some (GLetImm i (GIf CTry32 (g1 (GEncRexwMi 0xf7 (grm_of_rm op1) GImmL)) GPanic GNil))
      end
  | RiReg r => Some (g1 (GEncRexwMr [0x85] (greg_of r) (grm_of_rm op1)))
  end.
(** asm.rs 94-126 [Testb]. *)
Definition testb (op1 : rm_operand) (op2 : ri_operand) : option gcode :=
  match op2 with
  | RiImm i =>
      match op1 with
      | RmReg r =>
          Some (GLetImm i (GIf CTry8
            (GIf (CIsRax (greg_of r)) (g2 (GEmit [0xa8]) GEmitbImm)
              (g1 (GEncMiByte 0xf6 (grm_of_rm op1) GImmB)) GNil) GPanic GNil))
      | RmInd _ =>
          Some (GLetImm i (GIf CTry8 (g1 (GEncMiByte 0xf6 (grm_of_rm op1) GImmB)) GPanic GNil))
      end
  | RiReg r => Some (g1 (GEncMrByte [0x84] (greg_of r) (grm_of_rm op1)))
  end.

(** asm.rs 8-10, [&#f.to_ne_bytes()]: a float literal is put into the code by
    [Literal::f64_suffixed], which panics for an infinite number (a literal too
    large for f64) and gives the two tokens [-] and [1.5f64] for a negative one,
    where rustc reads [-(1.5f64.to_ne_bytes())] and rejects the program. *)
Definition float_ok (bits : Z) : bool := bits <? 0x7ff0000000000000.
(** asm.rs 5-346 [compile]. *)
Definition compile (i : inst) : option gcode :=
  match i with
  | ILabel ident => Some (g1 (GBindLabel ident))
  | IF64 bits => if float_ok bits then Some (g1 (GEmit (le 8 bits))) else None
  | II64 v => Some (g1 (GEmitqLit v))
  | IMovq a b => movq a b
  | IMovl a b => movl a b
  | IMovw a b => movw a b
  | IMovb a b => movb a b
  | IMovsxl a b => Some (g1 (GEncRexwMr [0x63] (greg_of a) (grm_of_rm b)))
  | IMovzxw a b => Some (g1 (GEncRexwMr [0x0f; 0xb7] (greg_of a) (grm_of_rm b)))
  | IMovsxw a b => Some (g1 (GEncRexwMr [0x0f; 0xbf] (greg_of a) (grm_of_rm b)))
  | IMovzxb a b => Some (g1 (GEncRexwMr [0x0f; 0xb6] (greg_of a) (grm_of_rm b)))
  | IMovsxb a b => Some (g1 (GEncRexwMr [0x0f; 0xbe] (greg_of a) (grm_of_rm b)))
  | IAdd sz a b => binary_op sz 0x01 0 a b
  | IOr sz a b => binary_op sz 0x09 1 a b
  | IAdc sz a b => binary_op sz 0x11 2 a b
  | ISbb sz a b => binary_op sz 0x19 3 a b
  | IAnd sz a b => binary_op sz 0x21 4 a b
  | ISub sz a b => binary_op sz 0x29 5 a b
  | IXor sz a b => binary_op sz 0x31 6 a b
  | ICmp sz a b => binary_op sz 0x39 7 a b
  | IXchg sz a b => xchg sz a b
  | ITestq a b => testq a b
  | ITestb a b => testb a b
  | IRol sz a b => shift_op sz 0 a b
  | IRor sz a b => shift_op sz 1 a b
  | IShl sz a b => shift_op sz 4 a b
  | IShr sz a b => shift_op sz 5 a b
  | ISal sz a b => shift_op sz 4 a b
  | ISar sz a b => shift_op sz 7 a b
  | ISetcc c a => Some (g1 (GEncMByte [0x0f; 0x90 + cond_code c] (grm_of_rm a)))
  | ICmovcc sz c a b =>
      match sz with
      | QWORD => Some (g1 (GEncRexwMr [0x0f; 0x40 + cond_code c] (greg_of a) (grm_of_rm b)))
      | DWORD => Some (g1 (GEncMr [0x0f; 0x40 + cond_code c] (greg_of a) (grm_of_rm b)))
      | WORD => Some (g2 (GEmitb 0x66) (GEncMr [0x0f; 0x40 + cond_code c] (greg_of a) (grm_of_rm b)))
      | BYTE => None
      end
  | ICqo => Some (g1 (GEmit [0x48; 0x99]))
  | ICdq => Some (g1 (GEmit [0x99]))
  | IInt3 => Some (g1 (GEmit [0xcc]))
  | INegq a => Some (g1 (GEncRexwDigit [0xf7] (grm_of_rm a) 3 GImmNone))
  | IImul a b =>
      match a with
      | RmiReg r =>
          match grm_of_rmi b with
          | Some b' => Some (g1 (GEncRexwMr [0x0f; 0xaf] (greg_of r) b'))
          | None => None
          end
      | _ => None
      end
  | IIdiv a => divide_op QWORD true a
  | IIdivl a => divide_op DWORD true a
  | IDiv a => divide_op QWORD false a
  | IDivl a => divide_op DWORD false a
  | IMovsd a b =>
      match a, b with
      | XmXmm x1, _ => Some (g2 (GEmitb 0xf2) (GEncMr [0x0f; 0x10] x1 (grm_of_xm b)))
      | _, XmXmm x2 => Some (g2 (GEmitb 0xf2) (GEncMr [0x0f; 0x11] x2 (grm_of_xm a)))
      | _, _ => None
      end
  | IAddsd a b => binary_sd_op 0x58 a b
  | ISubsd a b => binary_sd_op 0x5c a b
  | IMulsd a b => binary_sd_op 0x59 a b
  | IDivsd a b => binary_sd_op 0x5e a b
  | IMinsd a b => binary_sd_op 0x5d a b
  | IMaxsd a b => binary_sd_op 0x5f a b
  | IXorps a b => Some (g1 (GEncMr [0x0f; 0x57] a (grm_of_xm b)))
  | ILea a b =>
      match a, b with
      | RmReg r, RmInd m => Some (g1 (GEncRexwMr [0x8d] (greg_of r) (GRmInd m)))
      | _, _ => None
      end
  | ICvtsi2sdq a b => Some (g2 (GEmitb 0xf2) (GEncRexwMr [0x0f; 0x2a] a (grm_of_rm b)))
  | ICvttsd2siq a b => Some (g2 (GEmitb 0xf2) (GEncMr [0x0f; 0x2c] (greg_of a) (grm_of_xm b)))
  | IAndpd a b => Some (g2 (GEmitb 0x66) (GEncMr [0x0f; 0x54] a (grm_of_xm b)))
  | IXorpd a b => Some (g2 (GEmitb 0x66) (GEncMr [0x0f; 0x57] a (grm_of_xm b)))
  | IRoundpd a b e =>
      Some (GDo (GEmitb 0x66) (g2 (GEncMr [0x0f; 0x3a; 0x09] a (grm_of_xm b)) (GEmitbExpr e)))
  | ISqrtpd a b => Some (g2 (GEmitb 0x66) (GEncMr [0x0f; 0x51] a (grm_of_xm b)))
  | ISqrtsd a b => Some (g2 (GEmitb 0xf2) (GEncMr [0x0f; 0x51] a (grm_of_xm b)))
  | IPushq a => push_pop 0x50 (0xff, 6) a
  | IPopq a => push_pop 0x58 (0x8f, 0) a
  | ICall d =>
      match d with
      | DestReg n => Some (g1 (GEncDigit [0xff] (GRmReg (ELit n)) 2))
      | DestInd a => Some (g1 (GEncDigit [0xff] (GRmInd a) 2))
      | DestRel ident => Some (GDo (GEmitb 0xe8) (g2 (GSaveReloc ident 4) (GEmitl 0)))
      | DestDisp e => Some (GIf (CTry32Of e) (g2 (GEmitb 0xe8) GEmitlImm) GPanic GNil)
      end
  | IRet => Some (g1 (GEmitb 0xc3))
  | IJmp d =>
      match d with
      | DestReg n => Some (g1 (GEncDigit [0xff] (GRmReg (ELit n)) 4))
      | DestInd a => Some (g1 (GEncDigit [0xff] (GRmInd a) 4))
      | DestRel ident => Some (g1 (GEncD [0xe9] ident))
      | DestDisp _ => None
      end
  | IJcc c ident => Some (g1 (GEncD [0x0f; 0x80 + cond_code c] ident))
  | IUComIsd a b => Some (g2 (GEmitb 0x66) (GEncMr [0x0f; 0x2e] a (grm_of_xm b)))
  | ISyscall => Some (g1 (GEmit [0x0f; 0x05]))
  | ILeave => Some (g1 (GEmitb 0xc9))
  | ITzcnt sz a b => count_op sz 0xbc a b
  | ILzcnt sz a b => count_op sz 0xbd a b
  | IPopcnt sz a b => count_op sz 0xb8 a b
  end.

(** ** Execution of the generated code *)

(** The caller's integer variables and label variables: the expansion is a block in the caller's function
    (monoasm_macro/src/lib.rs 22-29), so the expressions spliced into it see them. *)
Definition env := string -> Z.
Definition env_set (x : string) (v : Z) (r : env) : env :=
  fun y => if String.eqb y x then v else r y.

Section Exec.
(** The value of a token stream as a Rust expression in an environment (pure
    integer expressions; the code generator may evaluate an operand expression
    twice, which is not observable for pure expressions). *)
Variable ev : list tok -> env -> Z.
(** Label variables: [DestLabel]s of the caller. *)
Variable lenv : string -> label.

(** An operand expression as spliced: [#ts], [#i] (parse.rs 132-140, inst.rs 542-550). *)
Definition eval (r : env) (e : expr) : Z :=
  match e with ELit v => v | EToks ts => ev ts r end.

(** [Reg::from(e)] (lib.rs 49-51). *)
Definition run_reg (r : env) (g : greg) : reg := reg_from (eval r g).

(** [Disp::from_disp(#e as i32)], [Disp::from_disp(-(#e as i32))] (release-mode
    negation wraps), [Disp::from_label(ident)]. *)
Definition run_disp (r : env) (d : pdisp) : disp :=
  match d with
  | PImm d => from_disp d
  | PExpr negated e => from_disp (if negated then i32 (- i32 (eval r e)) else i32 (eval r e))
  | PLabel ident => from_label (lenv ident)
  end.
Definition run_scale (r : env) (sc : pscale) : scale :=
  match sc with PScaleNone => ScaleNone | PS1 k g => S1 k (run_reg r (greg_of g)) end.
Definition run_rm (r : env) (x : grm) : rm :=
  match x with
  | GRmReg g => rm_reg (run_reg r g)
  | GRmInd a => rm_ind (run_reg r (greg_of (ia_base a))) (run_disp r (ia_disp a)) (run_scale r (ia_scale a))
  end.
(** The variable [imm] in scope: asm.rs 67, 82, 100, 115, 374, 382, 401, 437, 453, 479, 495, 526, 542, 607, 666, 725, 791, 880, 908; 289. *)
Definition the_imm (r : env) : Z := r "imm"%string.
Definition run_imm (r : env) (i : gimm) : imm :=
  match i with
  | GImmNone => ImmNone
  | GImmB => ImmB (the_imm r)
  | GImmW => ImmW (the_imm r)
  | GImmL => ImmL (the_imm r)
  end.

(** The calls of the quoted code (asm.rs 5-974). *)
Definition run_call (r : env) (c : gcall) : M unit :=
  match c with
  | GBindLabel ident => bind_label (lenv ident)
  | GEmit bs => emit bs
  | GEmitb b => emitb b
  | GEmitbExpr e => emitb (eval r e)
  | GEmitqLit v => emitq (u64 v)
  | GEmitl v => emitl v
  | GEmitbImm => emitb (u8 (the_imm r))
  | GEmitwImm => emitw (u16 (the_imm r))
  | GEmitlImm => emitl (u32 (the_imm r))
  | GEmitqImm => emitq (u64 (the_imm r))
  | GEncO op g => enc_o op (run_reg r g)
  | GEncOi op g => enc_oi op (run_reg r g)
  | GEncOiByte op g => enc_oi_byte op (run_reg r g)
  | GEncRexwO op g => enc_rexw_o op (run_reg r g)
  | GEncMi op x i => enc_mi op (run_rm r x) (run_imm r i)
  | GEncRexwMi op x i => enc_rexw_mi op (run_rm r x) (run_imm r i)
  | GEncMiByte op x i => enc_mi_byte op (run_rm r x) (run_imm r i)
  | GEncMr op g x => enc_mr op (run_reg r g) (run_rm r x)
  | GEncMrByte op g x => enc_mr_byte op (run_reg r g) (run_rm r x)
  | GEncRexwMr op g x => enc_rexw_mr op (run_reg r g) (run_rm r x)
  | GEncMByte op x => enc_m_byte op (run_rm r x)
  | GEncD op ident => enc_d op (lenv ident)
  | GEncDigit op x d => enc_digit op (run_rm r x) d
  | GEncDigitImm op x d i => enc_digit_imm op (run_rm r x) d (run_imm r i)
  | GEncDigitImmByte op al x d i => enc_digit_imm_byte op al (run_rm r x) d (run_imm r i)
  | GEncRexwDigit op x d i => enc_rexw_digit op (run_rm r x) d (run_imm r i)
  | GSaveReloc ident off => save_reloc (lenv ident) off
  end.

(** The conditions of asm.rs cited at [gcond].  The truth value of a condition and the environment of the then-branch
    ([if let Ok(imm) = ..] rebinds [imm] to the same number in a narrower type). *)
Definition run_cond (r : env) (c : gcond) : bool * env :=
  match c with
  | CTry8 => (in_i8 (the_imm r), r)
  | CTry16 => (in_i16 (the_imm r), r)
  | CTry32 => (in_i32 (the_imm r), r)
  | CTry32Of e => (in_i32 (i64 (eval r e)), env_set "imm" (i64 (eval r e)) r)
  | CIsRax g => (reg_is_rax (run_reg r g), r)
  | CNotCl g => (negb (is_cl (run_reg r g)), r)
  | CImmIs1 => (the_imm r =? 1, r)
  end.

(** monoasm_macro/src/lib.rs 26-28.  Runs a block; the result is the environment at its end, so that a [let imm]
    stays visible to the statements that follow in the same block. *)
Fixpoint exec (r : env) (g : gcode) : M env :=
  match g with
  | GNil => ret r
  | GDo c k => run_call r c ;; exec r k
  | GLetImm e k => exec (env_set "imm" (i64 (eval r e)) r) k
  | GIf c t e k =>
      (let '(b, r') := run_cond r c in if b then exec r' t else exec r e) ;; exec r k
  | GPanic => fail ImmRange
  end.

(** monoasm_macro/src/lib.rs 22-29: the expansions of all statements are
    concatenated in one block (they share one scope). *)
Fixpoint exec_all (r : env) (gs : list gcode) : M env :=
  match gs with
  | [] => ret r
  | g :: rest => r' <- exec r g ;; exec_all r' rest
  end.
End Exec.

Fixpoint compile_all (is : list inst) : option (list gcode) :=
  match is with
  | [] => Some []
  | i :: r =>
      match compile i, compile_all r with
      | Some g, Some gs => Some (g :: gs)
      | _, _ => None
      end
  end.
