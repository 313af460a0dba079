(** Specification: the bytes the GNU assembler chooses for an instruction (x86-64,
    without -O), for the instructions monoasm can write.  gen.rb, the repository's test
    generator, compares monoasm's output with these bytes.  The choice among the
    encodings an instruction has follows gas 2.40 (gas/config/tc-i386.c
    [optimize_imm], [optimize_disp], [build_modrm_byte], [process_operands]); the
    opcodes are those of the Intel SDM vol. 2.  Nothing here refers to the encoder of the model (only to the syntax of instructions).
    /verif/tools/validate compares this function with the assembler itself. *)
From Verif Require Import Base ModelSyntax SpecX86 SpecAsm.

(** REX prefix: there if one of its bits is set or [force] asks for it. *)
Definition rex_of (w : bool) (force : bool) (reg index base : Z) : list Z :=
  let b := 8 * Z.b2z w + 4 * (reg / 8) + 2 * (index / 8) + base / 8 in
  if (0 <? b) || force then [0x40 + b] else [].
(** spl, bpl, sil and dil are written with a REX prefix. *)
Definition needs_rex (o : operand) : bool :=
  match o with OReg W8 n => (4 <=? n) && (n <=? 7) | _ => false end.

Definition index_of (m : operand) : Z :=
  match m with OMem (mkMem _ (Some (i, _)) _) => i | _ => 0 end.
Definition base_of (m : operand) : Z :=
  match m with
  | OReg _ n | OXmm n => n
  | OMem (mkMem (Some (BReg b)) _ _) => b
  | _ => 0
  end.
(** The shortest displacement: none for 0 (rbp and r13 need one), one byte if it fits. *)
Definition disp_of (b d : Z) : Z * list Z :=
  if (d =? 0) && negb (b mod 8 =? 5) then (0, [])
  else if in_i8 d then (1, le 1 d) else (2, le 4 d).
(** ModRM, SIB, displacement; a SIB byte only with an index or the base rsp or r12. *)
Definition modrm_of (reg : Z) (m : operand) : list Z :=
  let r := 8 * (reg mod 8) in
  match m with
  | OReg _ n | OXmm n => [0xc0 + r + n mod 8]
  | OMem (mkMem (Some (BReg b)) ix d) =>
      let '(md, ds) := disp_of b d in
      match ix with
      | Some (i, sc) => [64 * md + r + 4; 64 * Z.log2 sc + 8 * (i mod 8) + b mod 8] ++ ds
      | None => if b mod 8 =? 4 then [64 * md + r + 4; 0x24] ++ ds else [64 * md + r + b mod 8] ++ ds
      end
  | OMem (mkMem (Some BRip) _ d) => (r + 5) :: le 4 d
  | _ => []
  end.

Definition is64 (w : width) : bool := match w with W64 => true | _ => false end.
Definition size66 (w : width) : list Z := match w with W16 => [0x66] | _ => [] end.
(** operand prefix, mandatory prefix, REX, opcode, ModRM.., immediate *)
Definition form (pre : list Z) (w : bool) (force : bool) (op : list Z) (reg : Z) (m : operand) (imm : list Z) : list Z :=
  pre ++ rex_of w force reg (index_of m) (base_of m) ++ op ++ modrm_of reg m ++ imm.
(** opcode with the register in its low bits *)
Definition oform (pre : list Z) (w force : bool) (op n : Z) (imm : list Z) : list Z :=
  pre ++ rex_of w force 0 0 n ++ [op + n mod 8] ++ imm.

(** The immediate of operand size, at most 4 bytes. *)
Definition imm_z (w : width) (v : Z) : list Z :=
  match w with W8 => le 1 v | W16 => le 2 v | _ => le 4 v end.
(** Opcodes come in pairs: byte operands, and the other widths. *)
Definition opw_of (w : width) (op : Z) : list Z := [match w with W8 => op | _ => op + 1 end].

Definition alu_no (o : alu) : Z :=
  match o with ADD => 0 | OR => 1 | ADC => 2 | SBB => 3 | AND => 4 | SUB => 5 | XOR => 6 | CMP => 7 end.
Definition shf_no (o : shf) : Z :=
  match o with ROL => 0 | ROR => 1 | RCL => 2 | RCR => 3 | SHL => 4 | SHR => 5 | SAR => 7 end.
Definition fp_no (k : fpk) : Z :=
  match k with
  | FSQRT => 0x51 | FAND => 0x54 | FXOR => 0x57 | FADD => 0x58 | FMUL => 0x59 | FSUB => 0x5c
  | FMIN => 0x5d | FDIV => 0x5e | FMAX => 0x5f
  end.
Definition fp_pre (t : fpt) : list Z := match t with PS => [] | PD => [0x66] | SS => [0xf3] | SD => [0xf2] end.
Definition fl_pre (t : fpt) : list Z := match t with PD | SD => [0x66] | _ => [] end.

(** op r/m, imm where [op8]/[op8+1] is the form without imm8: add .. cmp *)
Definition gas_alu (k : Z) (w : width) (d s : operand) : option (list Z) :=
  let gen op n m := form (size66 w) (is64 w) (needs_rex d || needs_rex s) op n m in
  match s with
  | OImm v =>
      match w, d with
      | W8, OReg _ 0 => Some ((8 * k + 4) :: le 1 v)
      | W8, _ => Some (gen [0x80] k d (le 1 v))
      | _, _ =>
          if in_i8 v then Some (gen [0x83] k d (le 1 v))
          else match d with
               | OReg _ 0 => Some (size66 w ++ rex_of (is64 w) false 0 0 0 ++ [8 * k + 5] ++ imm_z w v)
               | _ => Some (gen [0x81] k d (imm_z w v))
               end
      end
  | OReg _ n => Some (gen (opw_of w (8 * k)) n d [])
  | OMem _ => match d with OReg _ n => Some (gen (opw_of w (8 * k + 2)) n s []) | _ => None end
  | _ => None
  end.
Definition gas_mov (w : width) (d s : operand) : option (list Z) :=
  let gen op n m := form (size66 w) (is64 w) (needs_rex d || needs_rex s) op n m in
  match d, s with
  | OReg _ n, OImm v =>
      match w with
      | W8 => Some (oform [] false (needs_rex d) 0xb0 n (le 1 v))
      | W16 => Some (oform [0x66] false false 0xb8 n (le 2 v))
      | W32 => Some (oform [] false false 0xb8 n (le 4 v))
      | W64 => if in_i32 v then Some (gen [0xc7] 0 d (le 4 v)) else Some (oform [] true false 0xb8 n (le 8 v))
      end
  | _, OImm v => Some (gen (opw_of w 0xc6) 0 d (imm_z w v))
  | _, OReg _ n => Some (gen (opw_of w 0x88) n d [])
  | OReg _ n, OMem _ => Some (gen (opw_of w 0x8a) n s [])
  | _, _ => None
  end.
Definition gas_test (w : width) (d s : operand) : option (list Z) :=
  let gen op n m := form (size66 w) (is64 w) (needs_rex d || needs_rex s) op n m in
  match s with
  | OImm v =>
      match d with
      | OReg _ 0 => Some (size66 w ++ rex_of (is64 w) false 0 0 0 ++ opw_of w 0xa8 ++ imm_z w v)
      | _ => Some (gen (opw_of w 0xf6) 0 d (imm_z w v))
      end
  | OReg _ n => Some (gen (opw_of w 0x84) n d [])
  | _ => None
  end.
(** xchg: 90+r with rax (rax itself: nop), else 87 /r *)
Definition gas_xchg (d s : operand) : option (list Z) :=
  match d, s with
  | OReg _ a, OReg _ b =>
      if (a =? 0) && (b =? 0) then Some [0x90]
      else if a =? 0 then Some (oform [] true false 0x90 b [])
      else if b =? 0 then Some (oform [] true false 0x90 a [])
      else Some (form [] true false [0x87] b d [])
  | OMem _, OReg _ b => Some (form [] true false [0x87] b d [])
  | OReg _ a, OMem _ => Some (form [] true false [0x87] a s [])
  | _, _ => None
  end.
Definition gas_shift (k : Z) (w : width) (d s : operand) : option (list Z) :=
  let gen op m := form (size66 w) (is64 w) (needs_rex d) op k m in
  match s with
  | OImm 1 => Some (gen (opw_of w 0xd0) d [])
  | OImm v => Some (gen (opw_of w 0xc0) d (le 1 v))
  | OReg W8 1 => Some (gen (opw_of w 0xd2) d [])
  | _ => None
  end.

(** Branches to symbols that are not known yet (of another section) have 4-byte offsets. *)
Definition gas (x : ins) : option (list Z) :=
  let w := i_width x in
  let rm pre op d s := match d with OReg _ n | OXmm n => Some (form pre (is64 w) (needs_rex s) op n s []) | _ => None end in
  let xx pre op d s := match d with OXmm n => Some (form pre false false op n s []) | _ => None end in
  match i_mnem x, i_ops x with
  | Alu k, [d; s] => gas_alu (alu_no k) w d s
  | Mov, [d; s] => gas_mov w d s
  | Test, [d; s] => gas_test w d s
  | Xchg, [d; s] => if is64 w then gas_xchg d s else None
  | Shift k, [d; s] => gas_shift (shf_no k) w d s
  | Unary NEG, [d] => Some (form (size66 w) (is64 w) (needs_rex d) (opw_of w 0xf6) 3 d [])
  | Unary DIV, [d] => Some (form (size66 w) (is64 w) (needs_rex d) (opw_of w 0xf6) 6 d [])
  | Unary IDIV, [d] => Some (form (size66 w) (is64 w) (needs_rex d) (opw_of w 0xf6) 7 d [])
  | Movzx W8, [d; s] => rm (size66 w) [0x0f; 0xb6] d s
  | Movzx W16, [d; s] => rm (size66 w) [0x0f; 0xb7] d s
  | Movsx W8, [d; s] => rm (size66 w) [0x0f; 0xbe] d s
  | Movsx W16, [d; s] => rm (size66 w) [0x0f; 0xbf] d s
  | Movsx W32, [d; s] => rm (size66 w) [0x63] d s
  | Imul, [d; s] => rm (size66 w) [0x0f; 0xaf] d s
  | Lea, [d; s] => rm (size66 w) [0x8d] d s
  | Cmovcc c, [d; s] => rm (size66 w) [0x0f; 0x40 + c] d s
  | Popcnt, [d; s] => rm (size66 w ++ [0xf3]) [0x0f; 0xb8] d s
  | Tzcnt, [d; s] => rm (size66 w ++ [0xf3]) [0x0f; 0xbc] d s
  | Lzcnt, [d; s] => rm (size66 w ++ [0xf3]) [0x0f; 0xbd] d s
  | Setcc c, [d] => Some (form [] false (needs_rex d) [0x0f; 0x90 + c] 0 d [])
  | SignRdx, [] => Some (size66 w ++ rex_of (is64 w) false 0 0 0 ++ [0x99])
  | Push, [OReg _ n] => Some (oform [] false false 0x50 n [])
  | Push, [d] => Some (form [] false false [0xff] 6 d [])
  | Pop, [OReg _ n] => Some (oform [] false false 0x58 n [])
  | Pop, [d] => Some (form [] false false [0x8f] 0 d [])
  | Call, [ORel d] => Some (0xe8 :: le 4 d)
  | Call, [d] => Some (form [] false false [0xff] 2 d [])
  | Jmp, [ORel d] => Some (0xe9 :: le 4 d)
  | Jmp, [d] => Some (form [] false false [0xff] 4 d [])
  | Jcc c, [ORel d] => Some (0x0f :: (0x80 + c) :: le 4 d)
  | Ret, [] => Some [0xc3]
  | Leave, [] => Some [0xc9]
  | Syscall, [] => Some [0x0f; 0x05]
  | Int3, [] => Some [0xcc]
  | Nop, [] => Some [0x90]
  | MovF t, [OMem a; OXmm n] => Some (form (fp_pre t) false false [0x0f; 0x11] n (OMem a) [])
  | MovF t, [d; s] => xx (fp_pre t) [0x0f; 0x10] d s
  | Fp k t, [d; s] => xx (fp_pre t) [0x0f; fp_no k] d s
  | Ucomi t, [d; s] => xx (fl_pre t) [0x0f; 0x2e] d s
  | Roundpd, [OXmm n; s; OImm v] => Some (form [0x66] false false [0x0f; 0x3a; 0x09] n s (le 1 v))
  | Cvtsi2f t, [d; s] => rm (fp_pre t) [0x0f; 0x2a] d s
  | Cvttf2si t, [d; s] => rm (fp_pre t) [0x0f; 0x2c] d s
  | MovX, [OXmm n; OReg _ b] => Some (form [0x66] (is64 w) false [0x0f; 0x6e] n (OReg w b) [])
  | MovX, [OReg _ b; OXmm n] => Some (form [0x66] (is64 w) false [0x0f; 0x7e] n (OReg w b) [])
  | MovX, [OMem a; OXmm n] => Some (form [0x66] false false [0x0f; 0xd6] n (OMem a) [])
  | MovX, [OXmm n; s] => Some (form [0xf3] false false [0x0f; 0x7e] n s [])
  | _, _ => None
  end.

(** The two forms monoasm encodes differently: [movq reg, imm] always with an 8-byte
    immediate, and [op rax, imm] without the form for rax. *)
Definition long_form (x : ins) : option (list Z) :=
  let w := i_width x in
  match i_mnem x, i_ops x with
  | Mov, [OReg _ n; OImm v] =>
      if is64 w && in_i32 v then Some (oform [] true false 0xb8 n (le 8 v)) else None
  | Alu k, [OReg _ 0; OImm v] =>
      match w with
      | W8 => None
      | _ => if in_i8 v then None
             else Some (form (size66 w) (is64 w) false [0x81] (alu_no k) (OReg w 0) (imm_z w v))
      end
  | _, _ => None
  end.
(** What monoasm emits for [x]: gas's bytes, but for those two forms. *)
Definition as_gas (x : ins) (bs : list Z) : Prop :=
  match long_form x with Some l => bs = l | None => gas x = Some bs end.

(** ** Which instruction an instruction of a block is for gas *)
(** An assembler does not reduce a shift count modulo the operand size. *)
Definition with_count (v : Z) (x : ins) : ins :=
  match i_ops x with [d; OImm _] => mkIns (i_mnem x) (i_width x) [d; OImm v] | _ => x end.
Definition count_written (val : expr -> Z) (i : inst) (x : ins) : ins :=
  match i with
  | IShl _ _ (RiImm e) | IShr _ _ (RiImm e) | ISal _ _ (RiImm e) | ISar _ _ (RiImm e) | IRol _ _ (RiImm e) | IRor _ _ (RiImm e) =>
      with_count (i64 (val e)) x
  | _ => x
  end.
(** Labels in memory operands are relative to rip. *)
Definition rip_label (val : expr -> Z) (a : ind_addr) : Prop :=
  match ia_disp a with PLabel _ => reg_no val (ia_base a) = 16 | _ => True end.
Definition rip_labels (val : expr -> Z) (i : inst) : Prop := Forall (rip_label val) (mems_of i).
(** The bytes of a statement, with 0 for the distances to labels. *)
Definition stmt_bytes (val : expr -> Z) (i : inst) (bs : list Z) : Prop :=
  match i with
  | ILabel _ => bs = []
  | IF64 v | II64 v => bs = le 8 v
  | _ => exists x, denote val (fun _ => 0) i = Some x /\ as_gas (count_written val i x) bs
  end.
(** By how many bytes monoasm's encoding of an instruction is longer than gas's. *)
Definition alu_longer (val : expr -> Z) (sz : opsize) (a : rm_operand) (b : rmi_operand) : Z :=
  match sz, a, b with
  | (QWORD | DWORD | WORD), RmReg r, RmiImm e => if (reg_no val r =? 0) && negb (in_i8 (i64 (val e))) then 1 else 0
  | _, _, _ => 0
  end.
Definition longer (val : expr -> Z) (i : inst) : Z :=
  match i with
  | IMovq (MovReg _) (MovImm e _) => if in_i32 (i64 (val e)) then 3 else 0
  | IAdd sz a b | IOr sz a b | IAdc sz a b | ISbb sz a b | IAnd sz a b | ISub sz a b | IXor sz a b | ICmp sz a b => alu_longer val sz a b
  | _ => 0
  end.
