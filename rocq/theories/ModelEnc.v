(** Model of the instruction encoder: monoasm/src/lib.rs 44-252 and
    monoasm/src/jit_memory.rs 162-171, 577-886. *)
From Verif Require Import Base ModelMem.

(** lib.rs 44-81 [struct Reg(u8)].  [reg_from] is [Reg::from(num: u64)] with its
    [num as u8] cast. *)
Definition reg := Z.
Definition reg_from (num : Z) : reg := u8 num.
Definition rax : reg := 0.
Definition rcx : reg := 1.
Definition rbp : reg := 5.
Definition rip : reg := 16.
Definition is_rip (r : reg) : bool := r =? rip.
Definition is_cl (r : reg) : bool := r =? rcx.
Definition reg_is_rax (r : reg) : bool := r =? rax.

(** lib.rs 89-115 [enum Disp], [Disp::from_disp], [Disp::from_label]. *)
Inductive disp :=
| DispNone
| D8 (d : Z)
| D32 (d : Z)
| DLabel (l : label).
Definition from_disp (d : Z) : disp :=
  if d =? 0 then DispNone else if in_i8 d then D8 d else D32 d.
Definition from_label (l : label) : disp := DLabel l.

(** lib.rs 117-131 [enum Scale], [Scale::index]. *)
Inductive scale :=
| ScaleNone
| S1 (k : Z) (r : reg).
Definition scale_index (sc : scale) : reg :=
  match sc with ScaleNone => 0 | S1 _ r => r end.

(** lib.rs 133-151 [enum Imm], [Imm::offset]. *)
Inductive imm :=
| ImmNone
| ImmB (v : Z)
| ImmW (v : Z)
| ImmL (v : Z)
| ImmQ (v : Z).
Definition imm_offset (i : imm) : Z :=
  match i with ImmNone => 0 | ImmB _ => 1 | ImmW _ => 2 | ImmL _ => 4 | ImmQ _ => 8 end.

(** lib.rs 162-197 [enum Mode] and its methods. *)
Inductive mode :=
| MReg
| MInd (sc : scale) (d : disp).
Definition mode_encode (m : mode) : Z :=
  match m with
  | MReg => 3
  | MInd _ DispNone => 0
  | MInd _ (D8 _) => 1
  | MInd _ (D32 _) => 2
  | MInd _ (DLabel _) => 2
  end.
Definition mode_scale (m : mode) : scale :=
  match m with MReg => ScaleNone | MInd sc _ => sc end.
Definition mode_disp (m : mode) : disp :=
  match m with MReg => DispNone | MInd _ d => d end.
Definition is_indirect_no_disp (m : mode) : bool :=
  match m with MInd _ DispNone => true | _ => false end.
Definition mode_is_reg (m : mode) : bool := match m with MReg => true | _ => false end.

(** lib.rs 199-252 [struct Rm] and its constructors. *)
Record rm := mkRm { rm_base : reg; rm_mode : mode }.
Definition rm_reg (r : reg) : rm := mkRm r MReg.
Definition rm_is_reg (r : rm) : bool := mode_is_reg (rm_mode r).
Definition rm_is_rax (r : rm) : bool := mode_is_reg (rm_mode r) && reg_is_rax (rm_base r).
Definition rm_ind (b : reg) (d : disp) (sc : scale) : rm := mkRm b (MInd sc d).
(** lib.rs 233-251 [rip_ind_from]: [None] stands for the two unimplemented!()s. *)
Definition rip_ind_from (r : rm) : option rm :=
  match rm_mode r with
  | MReg => None
  | MInd ScaleNone (D8 d) => Some (mkRm rbp (MInd ScaleNone (D32 d)))
  | MInd ScaleNone (D32 d) => Some (mkRm rbp (MInd ScaleNone (D32 d)))
  | MInd ScaleNone DispNone => Some (mkRm rbp (MInd ScaleNone (D32 0)))
  | MInd ScaleNone (DLabel l) => Some (mkRm rbp (MInd ScaleNone (DLabel l)))
  | MInd (S1 _ _) _ => None
  end.

(** jit_memory.rs 162-171 [enum ModRM], [enum Rex]. *)
Inductive modrm_mode := ModReg (r : reg) | ModDigit (d : Z).
Inductive rexkind := REXW | RexNone | RexByte.

(** jit_memory.rs 778-792 [modrm]. *)
Definition modrm (mm : modrm_mode) (m : mode) (b : reg) : M unit :=
  let b' := match m with
            | MReg => b
            | MInd ScaleNone _ => b
            | MInd _ _ => 4
            end in
  let md := mode_encode m in
  let r := match mm with ModDigit d => d | ModReg r => r end in
  emitb (Z.lor (Z.lor (u8 (Z.shiftl md 6)) (Z.shiftl (Z.land r 7) 3)) (Z.land b' 7)).

(** The extension bits shared by jit_memory.rs 811 and 830-831. *)
Definition rex_bits (fixed : Z) (r b i : reg) : Z :=
  Z.lor (Z.lor (Z.lor fixed (Z.shiftr (Z.land r 8) 1)) (Z.shiftr (Z.land i 8) 2))
        (Z.shiftr (Z.land b 8) 3).
(** 810-813 [rexw]. *)
Definition rexw (r b i : reg) (m : mode) : M unit := emitb (rex_bits 72 r b i).
(** 829-833 [rex]. *)
Definition rex (r b i : reg) (m : mode) : M unit := emitb (rex_bits 64 r b i).
(** 815-819 [rex_none]. *)
Definition rex_none (r b i : reg) (m : mode) : M unit :=
  if (7 <? r) || (7 <? b) || (7 <? i) then rex r b i m else ret tt.
(** 821-827 [rex_none_byte]. *)
Definition rex_none_byte (r b i : reg) (m : mode) : M unit :=
  if (7 <? r) || (7 <? b) || (7 <? i) then rex r b i m
  else if (3 <? r) || ((3 <? b) && mode_is_reg m) then rex 0 0 0 m
  else ret tt.
(** 835-838 [op_with_rd]. *)
Definition op_with_rd (op : Z) (r : reg) : M unit := emitb (Z.lor op (Z.land r 7)).

(** 861-866 [sib]. *)
Definition sib (k : Z) (i b : reg) : M unit :=
  assert (k <? 4) ;;
  assert (i <? 16) ;;
  emitb (Z.lor (Z.lor (Z.shiftl k 6) (Z.shiftl (Z.land i 7) 3)) (Z.land b 7)).

(** 868-885 [emit_disp_imm]. *)
Definition emit_disp_imm (d : disp) (i : imm) : M unit :=
  (match d with
   | D8 d => emitb (u8 d)
   | D32 d => emitl (u32 d)
   | DLabel l => save_reloc l (4 + imm_offset i) ;; emitl 0
   | DispNone => ret tt
   end) ;;
  match i with
  | ImmNone => ret tt
  | ImmB b => emitb (u8 b)
  | ImmW w => emitw (u16 w)
  | ImmL l => emitl (u32 l)
  | ImmQ q => emitq (u64 q)
  end.

(** 693-697: selection of the REX function. *)
Definition rex_fn (rx : rexkind) : reg -> reg -> reg -> mode -> M unit :=
  match rx with REXW => rexw | RexNone => rex_none | RexByte => rex_none_byte end.

(** 688-762 [encode]. *)
Definition encode (op : list Z) (rx : rexkind) (mm : modrm_mode) (r : rm) (i : imm) : M unit :=
  let rg := match mm with ModDigit _ => 0 | ModReg r => r end in
  let rexf := rex_fn rx in
  assert (negb (is_rip rg)) ;;
  if is_rip (rm_base r) then
    match rip_ind_from r with
    | None => fail Unimplemented
    | Some r' =>
        rexf rg (rm_base r') 0 (rm_mode r') ;;
        emit op ;;
        modrm mm (MInd ScaleNone DispNone) (rm_base r') ;;
        emit_disp_imm (mode_disp (rm_mode r')) i
    end
  else if negb (mode_is_reg (rm_mode r)) && (Z.land (rm_base r) 7 =? 4) then
    match rm_mode r with
    | MInd sc d =>
        let '(k, idx) := match sc with ScaleNone => (0, 4) | S1 k idx => (k, idx) end in
        let b := rm_base r in
        rexf rg b idx (rm_mode r) ;;
        emit op ;;
        modrm mm (rm_mode r) b ;;
        sib k idx b ;;
        emit_disp_imm d i
    | MReg => fail Unimplemented (* unreachable!() *)
    end
  else if is_indirect_no_disp (rm_mode r) && (Z.land (rm_base r) 7 =? 5) then
    let sc := mode_scale (rm_mode r) in
    rexf rg (rm_base r) (scale_index sc) (rm_mode r) ;;
    let m := MInd sc (D8 0) in
    emit op ;;
    modrm mm m (rm_base r) ;;
    (match sc with ScaleNone => ret tt | S1 k idx => sib k idx (rm_base r) end) ;;
    emit_disp_imm (mode_disp m) i
  else
    rexf rg (rm_base r)
      (match rm_mode r with
       | MReg => 0
       | MInd ScaleNone _ => 0
       | MInd (S1 _ idx) _ => idx
       end) (rm_mode r) ;;
    emit op ;;
    modrm mm (rm_mode r) (rm_base r) ;;
    (match rm_mode r with
     | MReg => ret tt
     | MInd ScaleNone _ => ret tt
     | MInd (S1 k idx) _ => sib k idx (rm_base r)
     end) ;;
    emit_disp_imm (mode_disp (rm_mode r)) i.

(** 581-585 [enc_o]. *)
Definition enc_o (op : Z) (r : reg) : M unit :=
  assert (negb (is_rip r)) ;; rex_none 0 r 0 MReg ;; op_with_rd op r.
(** 589-593 [enc_oi]. *)
Definition enc_oi (op : Z) (r : reg) : M unit :=
  assert (negb (is_rip r)) ;; rex_none 0 r 0 MReg ;; op_with_rd op r.
(** 595-599 [enc_oi_byte]. *)
Definition enc_oi_byte (op : Z) (r : reg) : M unit :=
  assert (negb (is_rip r)) ;; rex_none_byte 0 r 0 MReg ;; op_with_rd op r.
(** 603-607 [enc_rexw_o]. *)
Definition enc_rexw_o (op : Z) (r : reg) : M unit :=
  assert (negb (is_rip r)) ;; rexw 0 r 0 MReg ;; op_with_rd op r.
(** 611-613 [enc_mi]. *)
Definition enc_mi (op : Z) (r : rm) (i : imm) : M unit := encode [op] RexNone (ModReg 0) r i.
(** 617-619 [enc_rexw_mi]. *)
Definition enc_rexw_mi (op : Z) (r : rm) (i : imm) : M unit := encode [op] REXW (ModReg 0) r i.
(** 621-623 [enc_mi_byte]. *)
Definition enc_mi_byte (op : Z) (r : rm) (i : imm) : M unit := encode [op] RexByte (ModReg 0) r i.
(** 628-630 [enc_mr]. *)
Definition enc_mr (op : list Z) (g : reg) (r : rm) : M unit := encode op RexNone (ModReg g) r ImmNone.
(** 632-634 [enc_mr_byte]. *)
Definition enc_mr_byte (op : list Z) (g : reg) (r : rm) : M unit := encode op RexByte (ModReg g) r ImmNone.
(** 639-641 [enc_rexw_mr]. *)
Definition enc_rexw_mr (op : list Z) (g : reg) (r : rm) : M unit := encode op REXW (ModReg g) r ImmNone.
(** 644-646 [enc_m_byte]. *)
Definition enc_m_byte (op : list Z) (r : rm) : M unit := encode op RexByte (ModReg 0) r ImmNone.
(** 650-654 [enc_d]. *)
Definition enc_d (op : list Z) (dest : label) : M unit :=
  emit op ;; save_reloc dest 4 ;; emitl 0.
(** 658-661 [enc_digit]. *)
Definition enc_digit (op : list Z) (r : rm) (digit : Z) : M unit :=
  encode op RexNone (ModDigit digit) r ImmNone.
(** 663-665 [enc_digit_imm]. *)
Definition enc_digit_imm (op : list Z) (r : rm) (digit : Z) (i : imm) : M unit :=
  encode op RexNone (ModDigit digit) r i.
(** 667-676 [enc_digit_imm_byte]. *)
Definition enc_digit_imm_byte (op : list Z) (op_al : Z) (r : rm) (digit : Z) (i : imm) : M unit :=
  if rm_is_rax r then emitb op_al ;; emit_disp_imm DispNone i
  else if rm_is_reg r then encode op RexByte (ModDigit digit) r i
  else encode op RexNone (ModDigit digit) r i.
(** 684-686 [enc_rexw_digit]. *)
Definition enc_rexw_digit (op : list Z) (r : rm) (digit : Z) (i : imm) : M unit :=
  encode op REXW (ModDigit digit) r i.
