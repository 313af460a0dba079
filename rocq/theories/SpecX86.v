(** Specification: a decoder for the part of x86-64 (64-bit mode) that an
    assembler for general-purpose and scalar-double SSE code needs.  Written from
    the Intel SDM vol. 2 (ch. 2 instruction format, ch. 3-5 opcode pages, app. A);
    it does not refer to the model of monoasm. *)
From Verif Require Import Base.

Inductive width := W8 | W16 | W32 | W64.

Inductive basereg := BReg (n : Z) | BRip.
(** An effective address: base + index * scale + disp. *)
Record maddr := mkMem { m_base : option basereg; m_index : option (Z * Z); m_disp : Z }.

Inductive operand :=
| OReg (w : width) (n : Z)       (* low w bits of general register n *)
| OHi (n : Z)                    (* ah, ch, dh, bh: bits 15..8 of register n *)
| OXmm (n : Z)
| OMem (a : maddr)
| OImm (v : Z)                   (* value after the CPU's sign extension *)
| ORel (d : Z).                  (* branch target relative to the next instruction *)

Inductive alu := ADD | OR | ADC | SBB | AND | SUB | XOR | CMP.
Inductive shf := ROL | ROR | RCL | RCR | SHL | SHR | SAR.
Inductive unary := NOT | NEG | MUL | IMUL1 | DIV | IDIV | INC | DEC.
Inductive fpk := FSQRT | FAND | FXOR | FADD | FMUL | FSUB | FMIN | FDIV | FMAX.
Inductive fpt := PS | PD | SS | SD.
Inductive mnem :=
| Alu (o : alu) | Shift (o : shf) | Unary (o : unary)
| Mov | Movzx (src : width) | Movsx (src : width) | Xchg | Test | Imul | Lea | Push | Pop
| SignRdx                        (* cwd / cdq / cqo *)
| Setcc (cc : Z) | Cmovcc (cc : Z) | Jcc (cc : Z) | Jmp | Call | Ret | Leave | Syscall | Int3 | Nop
| Popcnt | Lzcnt | Tzcnt | Bsf | Bsr
| MovF (t : fpt)                 (* movups, movupd, movss, movsd *)
| MovX                           (* movd / movq between xmm and r/m or xmm/m64 *)
| Cvtsi2f (t : fpt) | Cvttf2si (t : fpt) | Ucomi (t : fpt) | Fp (k : fpk) (t : fpt) | Roundpd.

Record ins := mkIns { i_mnem : mnem; i_width : width; i_ops : list operand }.

(** Legacy prefixes. *)
Inductive reppfx := RepNone | RepF2 | RepF3.
Record pfx := mkPfx { p66 : bool; prep : reppfx }.
Definition pfx0 : pfx := mkPfx false RepNone.
Fixpoint prefixes (p : pfx) (bs : list Z) : pfx * list Z :=
  match bs with
  | b :: r =>
      if b =? 0x66 then prefixes (mkPfx true (prep p)) r
      else if b =? 0xf2 then prefixes (mkPfx (p66 p) RepF2) r
      else if b =? 0xf3 then prefixes (mkPfx (p66 p) RepF3) r
      else (p, bs)
  | [] => (p, [])
  end.

(** REX prefix 0100WRXB. *)
Record rexinfo := mkRex { rpresent : bool; rw : bool; rr : Z; rx : Z; rb : Z }.
Definition no_rex : rexinfo := mkRex false false 0 0 0.
Definition split_rex (bs : list Z) : rexinfo * list Z :=
  match bs with
  | b :: r =>
      if (0x40 <=? b) && (b <=? 0x4f)
      then (mkRex true ((b / 8) mod 2 =? 1) ((b / 4) mod 2) ((b / 2) mod 2) (b mod 2), r)
      else (no_rex, bs)
  | [] => (no_rex, [])
  end.

Definition opw (p : pfx) (r : rexinfo) : width :=
  if rw r then W64 else if p66 p then W16 else W32.

(** [n] bytes as a signed / unsigned little-endian number. *)
Definition take_s (n : nat) (bs : list Z) : option (Z * list Z) :=
  if (n <=? length bs)%nat
  then Some (signed (256 ^ Z.of_nat n) (unle (firstn n bs)), skipn n bs) else None.
Definition take_u (n : nat) (bs : list Z) : option (Z * list Z) :=
  if (n <=? length bs)%nat then Some (unle (firstn n bs), skipn n bs) else None.
(** Immediate of operand size, at most 32 bits (sign-extended). *)
Definition take_z (w : width) (bs : list Z) : option (Z * list Z) :=
  match w with W8 => take_s 1 bs | W16 => take_s 2 bs | _ => take_s 4 bs end.
(** Immediate of full operand size (mov r, imm). *)
Definition take_full (w : width) (bs : list Z) : option (Z * list Z) :=
  match w with W8 => take_s 1 bs | W16 => take_s 2 bs | W32 => take_s 4 bs | W64 => take_s 8 bs end.

(** ModRM, SIB and displacement (SDM vol. 2, 2.1.3-2.1.5, 2.2.1). *)
Inductive rmop := RmR (n : Z) | RmM (a : maddr).
Record modrm_info := mkModRM { mr_reg : Z; mr_digit : Z; mr_rm : rmop }.

Definition take_disp (md : Z) (bs : list Z) : option (Z * list Z) :=
  if md =? 1 then take_s 1 bs else if md =? 2 then take_s 4 bs else Some (0, bs).

Definition parse_modrm (r : rexinfo) (bs : list Z) : option (modrm_info * list Z) :=
  match bs with
  | [] => None
  | m :: t =>
      let md := m / 64 in
      let digit := (m / 8) mod 8 in
      let lo := m mod 8 in
      let mk x := mkModRM (8 * rr r + digit) digit x in
      if md =? 3 then Some (mk (RmR (8 * rb r + lo)), t)
      else if lo =? 4 then
        match t with
        | [] => None
        | s :: t2 =>
            let idx := 8 * rx r + (s / 8) mod 8 in
            let index := if idx =? 4 then None else Some (idx, 2 ^ (s / 64)) in
            if (s mod 8 =? 5) && (md =? 0) then
              match take_s 4 t2 with
              | Some (d, t3) => Some (mk (RmM (mkMem None index d)), t3)
              | None => None
              end
            else
              match take_disp md t2 with
              | Some (d, t3) => Some (mk (RmM (mkMem (Some (BReg (8 * rb r + s mod 8))) index d)), t3)
              | None => None
              end
        end
      else if (lo =? 5) && (md =? 0) then
        match take_s 4 t with
        | Some (d, t2) => Some (mk (RmM (mkMem (Some BRip) None d)), t2)
        | None => None
        end
      else
        match take_disp md t with
        | Some (d, t2) => Some (mk (RmM (mkMem (Some (BReg (8 * rb r + lo))) None d)), t2)
        | None => None
        end
  end.

(** Register operands.  Without a REX prefix byte registers 4..7 are ah..bh. *)
Definition gpr (w : width) (r : rexinfo) (n : Z) : operand :=
  match w with
  | W8 => if negb (rpresent r) && (4 <=? n) && (n <=? 7) then OHi (n - 4) else OReg W8 n
  | _ => OReg w n
  end.
Definition rmo (w : width) (r : rexinfo) (x : rmop) : operand :=
  match x with RmR n => gpr w r n | RmM a => OMem a end.
Definition xmo (x : rmop) : operand :=
  match x with RmR n => OXmm n | RmM a => OMem a end.

Definition alu_of (n : Z) : alu :=
  if n =? 0 then ADD else if n =? 1 then OR else if n =? 2 then ADC else if n =? 3 then SBB
  else if n =? 4 then AND else if n =? 5 then SUB else if n =? 6 then XOR else CMP.
Definition shf_of (n : Z) : option shf :=
  if n =? 0 then Some ROL else if n =? 1 then Some ROR else if n =? 2 then Some RCL
  else if n =? 3 then Some RCR else if n =? 4 then Some SHL else if n =? 5 then Some SHR
  else if n =? 7 then Some SAR else None.

Definition obind {A B} (x : option A) (f : A -> option B) : option B :=
  match x with Some a => f a | None => None end.
Definition no_pfx (p : pfx) : bool := negb (p66 p) && match prep p with RepNone => true | _ => false end.
Definition no_rep (p : pfx) : bool := match prep p with RepNone => true | _ => false end.

Definition result := option (ins * list Z).

(** rm, reg and reg, rm forms *)
Definition form_mr (m : mnem) (w : width) (r : rexinfo) (bs : list Z) : result :=
  obind (parse_modrm r bs) (fun x =>
    Some (mkIns m w [rmo w r (mr_rm (fst x)); gpr w r (mr_reg (fst x))], snd x)).
Definition form_rm (m : mnem) (w wsrc : width) (r : rexinfo) (bs : list Z) : result :=
  obind (parse_modrm r bs) (fun x =>
    Some (mkIns m w [gpr w r (mr_reg (fst x)); rmo wsrc r (mr_rm (fst x))], snd x)).
(** rm with an opcode extension, without and with immediate *)
Definition form_m (m : Z -> option mnem) (w : width) (r : rexinfo) (bs : list Z) : result :=
  obind (parse_modrm r bs) (fun x =>
    obind (m (mr_digit (fst x))) (fun o => Some (mkIns o w [rmo w r (mr_rm (fst x))], snd x))).
Definition form_mi (m : Z -> option mnem) (w : width) (r : rexinfo)
    (ti : list Z -> option (Z * list Z)) (bs : list Z) : result :=
  obind (parse_modrm r bs) (fun x =>
    obind (m (mr_digit (fst x))) (fun o =>
      obind (ti (snd x)) (fun i =>
        Some (mkIns o w [rmo w r (mr_rm (fst x)); OImm (fst i)], snd i)))).
(** accumulator, immediate *)
Definition form_ai (m : mnem) (w : width) (bs : list Z) : result :=
  obind (take_z w bs) (fun i => Some (mkIns m w [OReg w 0; OImm (fst i)], snd i)).
(** shifts: the count is masked to 5 bits, 6 bits for 64-bit operands *)
Definition mask (w : width) (c : Z) : Z := match w with W64 => c mod 64 | _ => c mod 32 end.
Definition form_shift (w : width) (r : rexinfo) (count : list Z -> option (operand * list Z))
    (bs : list Z) : result :=
  obind (parse_modrm r bs) (fun x =>
    obind (shf_of (mr_digit (fst x))) (fun o =>
      obind (count (snd x)) (fun c =>
        Some (mkIns (Shift o) w [rmo w r (mr_rm (fst x)); fst c], snd c)))).
Definition count_imm (w : width) (bs : list Z) : option (operand * list Z) :=
  obind (take_u 1 bs) (fun i => Some (OImm (mask w (fst i)), snd i)).
Definition count_1 (bs : list Z) : option (operand * list Z) := Some (OImm 1, bs).
Definition count_cl (bs : list Z) : option (operand * list Z) := Some (OReg W8 1, bs).
(** branches with a relative displacement *)
Definition form_rel (m : mnem) (n : nat) (bs : list Z) : result :=
  obind (take_s n bs) (fun d => Some (mkIns m W64 [ORel (fst d)], snd d)).

Definition dig (n : Z) (m : mnem) (d : Z) : option mnem := if d =? n then Some m else None.
Definition grp3 (d : Z) : option mnem :=
  if d =? 2 then Some (Unary NOT) else if d =? 3 then Some (Unary NEG)
  else if d =? 4 then Some (Unary MUL) else if d =? 5 then Some (Unary IMUL1)
  else if d =? 6 then Some (Unary DIV) else if d =? 7 then Some (Unary IDIV) else None.
Definition digit_of (r : rexinfo) (bs : list Z) : Z :=
  match bs with [] => 0 | m :: _ => (m / 8) mod 8 end.
Definition is_mem_modrm (bs : list Z) : bool :=
  match bs with [] => false | m :: _ => negb (m / 64 =? 3) end.

(** One-byte opcodes (SDM vol. 2 table A-2). *)
Definition dec1 (p : pfx) (r : rexinfo) (op : Z) (t : list Z) : result :=
  let w := opw p r in
  if negb (no_rep p) then None
  else if (op <? 0x40) && (op mod 8 <? 6) then
    let o := Alu (alu_of (op / 8)) in
    let f := op mod 8 in
    if f =? 0 then form_mr o W8 r t
    else if f =? 1 then form_mr o w r t
    else if f =? 2 then form_rm o W8 W8 r t
    else if f =? 3 then form_rm o w w r t
    else if f =? 4 then form_ai o W8 t
    else form_ai o w t
  else if (0x50 <=? op) && (op <=? 0x57) then
    if p66 p then None else Some (mkIns Push W64 [OReg W64 (8 * rb r + (op - 0x50))], t)
  else if (0x58 <=? op) && (op <=? 0x5f) then
    if p66 p then None else Some (mkIns Pop W64 [OReg W64 (8 * rb r + (op - 0x58))], t)
  else if op =? 0x63 then if rw r then form_rm (Movsx W32) W64 W32 r t else None
  else if op =? 0x69 then None
  else if (0x70 <=? op) && (op <=? 0x7f) then
    if p66 p then None else form_rel (Jcc (op - 0x70)) 1 t
  else if op =? 0x80 then form_mi (fun d => Some (Alu (alu_of d))) W8 r (take_s 1) t
  else if op =? 0x81 then form_mi (fun d => Some (Alu (alu_of d))) w r (take_z w) t
  else if op =? 0x83 then form_mi (fun d => Some (Alu (alu_of d))) w r (take_s 1) t
  else if op =? 0x84 then form_mr Test W8 r t
  else if op =? 0x85 then form_mr Test w r t
  else if op =? 0x86 then form_mr Xchg W8 r t
  else if op =? 0x87 then form_mr Xchg w r t
  else if op =? 0x88 then form_mr Mov W8 r t
  else if op =? 0x89 then form_mr Mov w r t
  else if op =? 0x8a then form_rm Mov W8 W8 r t
  else if op =? 0x8b then form_rm Mov w w r t
  else if op =? 0x8d then if is_mem_modrm t then form_rm Lea w w r t else None
  else if op =? 0x8f then if p66 p then None else form_m (dig 0 Pop) W64 r t
  else if (0x90 <=? op) && (op <=? 0x97) then
    let n := 8 * rb r + (op - 0x90) in
    if n =? 0 then Some (mkIns Nop w [], t)
    else Some (mkIns Xchg w [OReg w n; OReg w 0], t)
  else if op =? 0x99 then Some (mkIns SignRdx w [], t)
  else if op =? 0xa8 then form_ai Test W8 t
  else if op =? 0xa9 then form_ai Test w t
  else if (0xb0 <=? op) && (op <=? 0xb7) then
    obind (take_full W8 t) (fun i =>
      Some (mkIns Mov W8 [gpr W8 r (8 * rb r + (op - 0xb0)); OImm (fst i)], snd i))
  else if (0xb8 <=? op) && (op <=? 0xbf) then
    obind (take_full w t) (fun i =>
      Some (mkIns Mov w [OReg w (8 * rb r + (op - 0xb8)); OImm (fst i)], snd i))
  else if op =? 0xc0 then form_shift W8 r (count_imm W8) t
  else if op =? 0xc1 then form_shift w r (count_imm w) t
  else if op =? 0xc3 then if p66 p then None else Some (mkIns Ret W64 [], t)
  else if op =? 0xc6 then form_mi (dig 0 Mov) W8 r (take_z W8) t
  else if op =? 0xc7 then form_mi (dig 0 Mov) w r (take_z w) t
  else if op =? 0xc9 then if p66 p then None else Some (mkIns Leave W64 [], t)
  else if op =? 0xcc then Some (mkIns Int3 W64 [], t)
  else if op =? 0xd0 then form_shift W8 r count_1 t
  else if op =? 0xd1 then form_shift w r count_1 t
  else if op =? 0xd2 then form_shift W8 r count_cl t
  else if op =? 0xd3 then form_shift w r count_cl t
  else if op =? 0xe8 then if p66 p then None else form_rel Call 4 t
  else if op =? 0xe9 then if p66 p then None else form_rel Jmp 4 t
  else if op =? 0xeb then if p66 p then None else form_rel Jmp 1 t
  else if op =? 0xf6 then
    if digit_of r t =? 0 then form_mi (dig 0 Test) W8 r (take_z W8) t else form_m grp3 W8 r t
  else if op =? 0xf7 then
    if digit_of r t =? 0 then form_mi (dig 0 Test) w r (take_z w) t else form_m grp3 w r t
  else if op =? 0xfe then
    form_m (fun d => if d =? 0 then Some (Unary INC) else if d =? 1 then Some (Unary DEC) else None) W8 r t
  else if op =? 0xff then
    let d := digit_of r t in
    if d =? 0 then form_m (dig 0 (Unary INC)) w r t
    else if d =? 1 then form_m (dig 1 (Unary DEC)) w r t
    else if p66 p then None
    else if d =? 2 then form_m (dig 2 Call) W64 r t
    else if d =? 4 then form_m (dig 4 Jmp) W64 r t
    else if d =? 6 then form_m (dig 6 Push) W64 r t
    else None
  else None.

(** SSE operand type selected by the mandatory prefix. *)
Definition fpt_of (p : pfx) : fpt :=
  match prep p with RepF2 => SD | RepF3 => SS | RepNone => if p66 p then PD else PS end.
Definition form_xx (m : mnem) (r : rexinfo) (bs : list Z) : result :=   (* xmm, xmm/m *)
  obind (parse_modrm r bs) (fun x =>
    Some (mkIns m W64 [OXmm (mr_reg (fst x)); xmo (mr_rm (fst x))], snd x)).
Definition form_xx_rev (m : mnem) (r : rexinfo) (bs : list Z) : result := (* xmm/m, xmm *)
  obind (parse_modrm r bs) (fun x =>
    Some (mkIns m W64 [xmo (mr_rm (fst x)); OXmm (mr_reg (fst x))], snd x)).
Definition fp_of (op : Z) (t : fpt) : option mnem :=
  if op =? 0x51 then Some (Fp FSQRT t)
  else if op =? 0x54 then match t with PS | PD => Some (Fp FAND t) | _ => None end
  else if op =? 0x57 then match t with PS | PD => Some (Fp FXOR t) | _ => None end
  else if op =? 0x58 then Some (Fp FADD t)
  else if op =? 0x59 then Some (Fp FMUL t)
  else if op =? 0x5c then Some (Fp FSUB t)
  else if op =? 0x5d then Some (Fp FMIN t)
  else if op =? 0x5e then Some (Fp FDIV t)
  else if op =? 0x5f then Some (Fp FMAX t)
  else None.

(** Two-byte opcodes 0F xx (SDM vol. 2 table A-3). *)
Definition dec0F (p : pfx) (r : rexinfo) (op : Z) (t : list Z) : result :=
  let w := opw p r in
  let wi := if rw r then W64 else W32 in   (* SSE: 66 is not an operand-size prefix *)
  if op =? 0x05 then if no_pfx p then Some (mkIns Syscall W64 [], t) else None
  else if op =? 0x10 then form_xx (MovF (fpt_of p)) r t
  else if op =? 0x11 then form_xx_rev (MovF (fpt_of p)) r t
  else if op =? 0x2a then
    match prep p with
    | RepNone => None
    | _ => obind (parse_modrm r t) (fun x =>
        Some (mkIns (Cvtsi2f (fpt_of p)) wi [OXmm (mr_reg (fst x)); rmo wi r (mr_rm (fst x))], snd x))
    end
  else if op =? 0x2c then
    match prep p with
    | RepNone => None
    | _ => obind (parse_modrm r t) (fun x =>
        Some (mkIns (Cvttf2si (fpt_of p)) wi [OReg wi (mr_reg (fst x)); xmo (mr_rm (fst x))], snd x))
    end
  else if op =? 0x2e then
    match prep p with
    | RepNone => form_xx (Ucomi (if p66 p then SD else SS)) r t
    | _ => None
    end
  else if (0x40 <=? op) && (op <=? 0x4f) then
    if no_rep p then form_rm (Cmovcc (op - 0x40)) w w r t else None
  else if op =? 0x6e then
    match prep p, p66 p with
    | RepNone, true => obind (parse_modrm r t) (fun x =>
        Some (mkIns MovX wi [OXmm (mr_reg (fst x)); rmo wi r (mr_rm (fst x))], snd x))
    | _, _ => None
    end
  else if op =? 0x7e then
    match prep p, p66 p with
    | RepF3, false => form_xx MovX r t
    | RepNone, true => obind (parse_modrm r t) (fun x =>
        Some (mkIns MovX wi [rmo wi r (mr_rm (fst x)); OXmm (mr_reg (fst x))], snd x))
    | _, _ => None
    end
  else if op =? 0xd6 then
    match prep p, p66 p with
    | RepNone, true => form_xx_rev MovX r t
    | _, _ => None
    end
  else if (0x80 <=? op) && (op <=? 0x8f) then
    if no_pfx p then form_rel (Jcc (op - 0x80)) 4 t else None
  else if (0x90 <=? op) && (op <=? 0x9f) then
    if no_pfx p then form_m (fun _ => Some (Setcc (op - 0x90))) W8 r t else None
  else if op =? 0xaf then if no_rep p then form_rm Imul w w r t else None
  else if op =? 0xb6 then if no_rep p then form_rm (Movzx W8) w W8 r t else None
  else if op =? 0xb7 then if no_rep p then form_rm (Movzx W16) w W16 r t else None
  else if op =? 0xbe then if no_rep p then form_rm (Movsx W8) w W8 r t else None
  else if op =? 0xbf then if no_rep p then form_rm (Movsx W16) w W16 r t else None
  else if op =? 0xb8 then
    match prep p with RepF3 => form_rm Popcnt w w r t | _ => None end
  else if op =? 0xbc then
    match prep p with RepF3 => form_rm Tzcnt w w r t | RepNone => form_rm Bsf w w r t | _ => None end
  else if op =? 0xbd then
    match prep p with RepF3 => form_rm Lzcnt w w r t | RepNone => form_rm Bsr w w r t | _ => None end
  else obind (fp_of op (fpt_of p)) (fun m => form_xx m r t).

(** Three-byte opcodes 0F 3A xx: roundpd only. *)
Definition dec0F3A (p : pfx) (r : rexinfo) (op : Z) (t : list Z) : result :=
  if op =? 0x09 then
    match prep p, p66 p with
    | RepNone, true =>
        obind (parse_modrm r t) (fun x =>
          obind (take_u 1 (snd x)) (fun i =>
            Some (mkIns Roundpd W64 [OXmm (mr_reg (fst x)); xmo (mr_rm (fst x)); OImm (fst i)], snd i)))
    | _, _ => None
    end
  else None.

(** Opcode and operands, after the prefixes. *)
Definition decode_op (p : pfx) (r : rexinfo) (bs : list Z) : result :=
  match bs with
  | [] => None
  | op :: t =>
      if op =? 0x0f then
        match t with
        | [] => None
        | op2 :: t2 =>
            if op2 =? 0x3a then
              match t2 with [] => None | op3 :: t3 => dec0F3A p r op3 t3 end
            else dec0F p r op2 t2
        end
      else dec1 p r op t
  end.
(** The first instruction of a byte stream and the bytes that follow it. *)
Definition decode (bs : list Z) : result :=
  let '(p, b1) := prefixes pfx0 bs in
  let '(r, b2) := split_rex b1 in
  decode_op p r b2.

(** Hand-assembled cross-checks against the manual. *)
Example decode_ex1 : decode [0x48; 0x89; 0xe5] = Some (mkIns Mov W64 [OReg W64 5; OReg W64 4], []).
Proof. reflexivity. Qed.
Example decode_ex2 :   (* lea r9, [r12 + r13*4 - 8] *)
  decode [0x4f; 0x8d; 0x4c; 0xac; 0xf8]
  = Some (mkIns Lea W64 [OReg W64 9; OMem (mkMem (Some (BReg 12)) (Some (13, 4)) (-8))], []).
Proof. reflexivity. Qed.
Example decode_ex3 :   (* mov ah, bl ; mov spl, bl *)
  decode [0x88; 0xdc] = Some (mkIns Mov W8 [OHi 0; OReg W8 3], []) /\
  decode [0x40; 0x88; 0xdc] = Some (mkIns Mov W8 [OReg W8 4; OReg W8 3], []).
Proof. split; reflexivity. Qed.
Example decode_ex4 :   (* cmp word ptr [rip + 0x10], -2 *)
  decode [0x66; 0x83; 0x3d; 0x10; 0; 0; 0; 0xfe; 0x90]
  = Some (mkIns (Alu CMP) W16 [OMem (mkMem (Some BRip) None 16); OImm (-2)], [0x90]).
Proof. reflexivity. Qed.
Example decode_ex5 :   (* cvttsd2si rax, xmm9 needs REX.W and REX.B *)
  decode [0xf2; 0x49; 0x0f; 0x2c; 0xc1]
  = Some (mkIns (Cvttf2si SD) W64 [OReg W64 0; OXmm 9], []).
Proof. reflexivity. Qed.
