(** Properties C01-C07, C09, C26, C33, C35, C37: what assembling one statement does.
    Everywhere [ev] is any meaning of embedded Rust expressions, [lenv] any
    assignment of labels to label identifiers, [r] any values of the caller's
    variables, [s] any assembler state: page contents, cursors, labels, all arbitrary.
    [compile i = Some g] says that the macro expands the instruction. *)
From Verif Require Import Base ModelMem ModelEnc ModelSyntax ModelMacro SpecX86 SpecAsm SpecState EncFacts EncRefute.

(** ** C01.  Full statement: as below without [ordinary] (and with the imm variable
    question of C25).  It is false when the index register of a memory operand is
    rsp: the operand names no x86 operand ([denote] is None) but is assembled, as
    the same operand without an index.  The rest is [C01_partial]. *)
Theorem C01_partial : forall ev lenv r i g s r' s',
  ordinary ev r i -> is_sse i = false -> compile i = Some g -> exec ev lenv r g s = Ok r' s' ->
  exists bs x, grows s s' bs /\ denote (eval ev r) (fun _ => 0) i = Some x /\ reads_as bs x.
Proof. exact fid_gp. Qed.
Print Assumptions C01_partial.
Theorem C01_refuted : exists ev lenv r i g s r' s',
  is_instr i = true /\ no_imm_var ev r i /\ compile i = Some g /\ exec ev lenv r g s = Ok r' s' /\
  denote (eval ev r) (fun _ => 0) i = None.
Proof. exact index_rsp_refuted. Qed.
Print Assumptions C01_refuted.
Example C01_case : ordinary ev0 r0 i_add /\ is_sse i_add = false /\ is_ok (run0 i_add s0) = true /\
  bytes0 i_add s0 = [0x4b; 0x81; 0x44; 0xac; 0xf8; 0xe8; 3; 0; 0].
Proof. exact (conj ord_add (conj eq_refl (conj eq_refl eq_refl))). Qed.

(** ** C02.  Full statement: as C01 for SSE instructions.  It is false for cvttsd2siq,
    which converts to a 32-bit integer (no REX.W), and that is all it is false for. *)
Theorem C02_partial : forall ev lenv r i g s r' s',
  ordinary ev r i -> is_cvttsd2siq i = false -> compile i = Some g -> exec ev lenv r g s = Ok r' s' ->
  exists bs x, grows s s' bs /\ denote (eval ev r) (fun _ => 0) i = Some x /\ reads_as bs x.
Proof. exact fid_main. Qed.
Print Assumptions C02_partial.
Theorem C02_cvttsd2siq : forall ev lenv r a b g s r' s',
  ordinary ev r (ICvttsd2siq a b) -> compile (ICvttsd2siq a b) = Some g -> exec ev lenv r g s = Ok r' s' ->
  exists bs d x, grows s s' bs /\ d_xm (eval ev r) (fun _ => 0) b = Some d /\
    x = mkIns (Cvttf2si SD) W32 [OReg W32 (reg_no (eval ev r) a); d] /\ reads_as bs x.
Proof. exact fid_cvttsd2siq. Qed.
Print Assumptions C02_cvttsd2siq.
Theorem C02_refuted : exists ev lenv r i g s r' s' x,
  ordinary ev r i /\ is_sse i = true /\ compile i = Some g /\ exec ev lenv r g s = Ok r' s' /\
  denote (eval ev r) (fun _ => 0) i = Some x /\ forall bs, grows s s' bs -> ~ reads_as bs x.
Proof. exact cvt_refuted. Qed.
Print Assumptions C02_refuted.
Example C02_case : ordinary ev0 r0 i_rnd /\ is_sse i_rnd = true /\ is_ok (run0 i_rnd s0) = true /\
  bytes0 i_rnd s0 = [0x66; 0x44; 0x0f; 0x3a; 9; 0x4c; 0x45; 0; 3].
Proof. exact (conj ord_rnd (conj eq_refl (conj eq_refl eq_refl))). Qed.
Example C02_case_cvt : ordinary ev0 r0 i_cvt /\ is_ok (run0 i_cvt s0) = true /\ bytes0 i_cvt s0 = [0xf2; 0x0f; 0x2c; 0xc1].
Proof. exact (conj ord_cvt (conj eq_refl eq_refl)). Qed.

(** ** C03.  Full statement: as below without [ordinary]; false for index rsp. *)
Theorem C03_partial : forall ev lenv r i g s r' s' a rf,
  ordinary ev r i -> compile i = Some g -> exec ev lenv r g s = Ok r' s' -> In a (mems_of i) ->
  exists bs y m, grows s s' bs /\ (forall rest, decode (bs ++ rest) = Some (y, rest)) /\ In (OMem m) (i_ops y) /\
    ea rf (here s + Z.of_nat (List.length bs)) m =
      written_ea (eval ev r) (fun _ => 0) rf (here s + Z.of_nat (List.length bs)) a /\
    m_disp m = written_disp (eval ev r) (fun _ => 0) (ia_disp a).
Proof. exact mem_main. Qed.
Print Assumptions C03_partial.
Theorem C03_refuted : exists ev lenv r i g s r' s' a rf,
  is_instr i = true /\ no_imm_var ev r i /\ compile i = Some g /\ exec ev lenv r g s = Ok r' s' /\ mems_of i = [a] /\
  forall bs y m, grows s s' bs -> decode bs = Some (y, []) -> In (OMem m) (i_ops y) ->
    ea rf (here s + Z.of_nat (List.length bs)) m <>
      written_ea (eval ev r) (fun _ => 0) rf (here s + Z.of_nat (List.length bs)) a.
Proof. exact index_rsp_ea. Qed.
Print Assumptions C03_refuted.
Example C03_case : ordinary ev0 r0 i_add /\ is_ok (run0 i_add s0) = true /\
  In (mkInd (RReg 12) (PS1 2 (RReg 13)) (PExpr true (lit 8))) (mems_of i_add).
Proof. exact (conj ord_add (conj eq_refl (or_introl eq_refl))). Qed.

(** ** C04.  Immediates are exact, or the instruction panics; values that fit are accepted. *)
Theorem C04_exact : forall ev lenv r i g s r' s' e ok,
  ordinary ev r i -> compile i = Some g -> immediate i = Some (e, ok) -> exec ev lenv r g s = Ok r' s' ->
  ok (i64 (eval ev r e)) = true /\ exists bs y, grows s s' bs /\ (forall rest, decode (bs ++ rest) = Some (y, rest)) /\
    In (imm_operand i (i64 (eval ev r e))) (i_ops y).
Proof. exact imm_accepted. Qed.
Print Assumptions C04_exact.
Theorem C04_rejected : forall ev lenv r i g s e ok,
  ordinary ev r i -> compile i = Some g -> immediate i = Some (e, ok) ->
  ok (i64 (eval ev r e)) = false -> exists p s', exec ev lenv r g s = Panic p s'.
Proof. exact imm_rejected. Qed.
Print Assumptions C04_rejected.
Theorem C04_accepted : forall ev lenv r i g s,
  ordinary ev r i -> compile i = Some g -> count_is_cl ev r i ->
  (forall e ok, immediate i = Some (e, ok) -> ok (i64 (eval ev r e)) = true) ->
  cursor s + 15 <= PAGE_SIZE -> (forall x, In x (inst_labels i) -> (lenv x < List.length (labels s))%nat) ->
  exists r' s', exec ev lenv r g s = Ok r' s'.
Proof. exact accept_all. Qed.
Print Assumptions C04_accepted.
Example C04_case : ordinary ev0 r0 i_add /\ immediate i_add = Some (lit 1000, in_i32) /\ is_ok (run0 i_add s0) = true.
Proof. exact (conj ord_add (conj eq_refl eq_refl)). Qed.
Example C04_case_rejected : ordinary ev0 r0 i_bigimm /\ immediate i_bigimm = Some (lit 2147483648, in_i32) /\
  is_ok (run0 i_bigimm s0) = false.
Proof. exact (conj ord_bigimm (conj eq_refl eq_refl)). Qed.

(** ** C05.  Full statement: without [ordinary], and every displacement expression out
    of the 32-bit range panics.  The latter is false: it is truncated. *)
Theorem C05_partial : forall ev lenv r i g s r' s' a,
  ordinary ev r i -> compile i = Some g -> exec ev lenv r g s = Ok r' s' -> In a (mems_of i) ->
  exists bs y m, grows s s' bs /\ (forall rest, decode (bs ++ rest) = Some (y, rest)) /\ In (OMem m) (i_ops y) /\
    m_disp m = written_disp (eval ev r) (fun _ => 0) (ia_disp a).
Proof. exact disp_main. Qed.
Print Assumptions C05_partial.
Theorem C05_refuted : exists ev lenv r i g s r' s' a,
  is_instr i = true /\ no_imm_var ev r i /\ compile i = Some g /\ exec ev lenv r g s = Ok r' s' /\ mems_of i = [a] /\
  in_i32 (written_disp (eval ev r) (fun _ => 0) (ia_disp a)) = false /\
  forall bs y m, grows s s' bs -> decode bs = Some (y, []) -> In (OMem m) (i_ops y) ->
    m_disp m <> written_disp (eval ev r) (fun _ => 0) (ia_disp a).
Proof. exact bigdisp_refuted. Qed.
Print Assumptions C05_refuted.
Example C05_case : ordinary ev0 r0 i_add /\ is_ok (run0 i_add s0) = true /\ map ia_disp (mems_of i_add) = [PExpr true (lit 8)].
Proof. exact (conj ord_add (conj eq_refl eq_refl)). Qed.

(** ** C06.  A register in a byte position is the low byte of that register. *)
Theorem C06 : forall ev lenv r i g s r' s' c,
  ordinary ev r i -> compile i = Some g -> exec ev lenv r g s = Ok r' s' -> In c (byte_regs i) ->
  exists bs y, grows s s' bs /\ (forall rest, decode (bs ++ rest) = Some (y, rest)) /\
    In (OReg W8 (reg_no (eval ev r) c)) (i_ops y) /\ (forall n, ~ In (OHi n) (i_ops y)) /\
    denote (eval ev r) (fun _ => 0) i = Some y.
Proof. exact byte_main. Qed.
Print Assumptions C06.
Example C06_case : ordinary ev0 r0 i_movb /\ byte_regs i_movb = [RReg 6; RReg 5] /\ is_ok (run0 i_movb s0) = true /\
  bytes0 i_movb s0 = [0x40; 0x88; 0xee].
Proof. exact (conj ord_movb (conj eq_refl (conj eq_refl eq_refl))). Qed.

(** ** C07.  Full statement: as below for every instruction.  False for
    [roundpd xmm, [rip + label], imm], whose reference is 1 byte off. *)
Theorem C07_partial : forall ev lenv r i g s r' s',
  ordinary ev r i -> is_roundpd_label i = false -> compile i = Some g -> exec ev lenv r g s = Ok r' s' ->
  List.length (labels s') = List.length (labels s) /\
  forall l, (l < List.length (labels s))%nat -> exists ts, new_refs s s' l ts /\
    List.length ts = count_occ Nat.eq_dec (map lenv (inst_labels i)) l /\
    Forall (fun t => exists pos, t = Rel (cur s) (cursor s' - pos) pos /\ cursor s <= pos /\ pos + 4 <= cursor s' /\
      read (mem s') (here s + (pos - cursor s)) 4 = [0; 0; 0; 0]) ts.
Proof. exact refs_main. Qed.
Print Assumptions C07_partial.
Theorem C07_refuted : exists ev lenv r i g s r' s' l off pos,
  ordinary ev r i /\ compile i = Some g /\ exec ev lenv r g s = Ok r' s' /\
  new_refs s s' l [Rel (cur s) off pos] /\ pos + off <> cursor s'.
Proof. exact round_refuted. Qed.
Print Assumptions C07_refuted.
Example C07_case : ordinary ev0 r0 i_cmp /\ is_roundpd_label i_cmp = false /\ is_ok (run0 i_cmp s1) = true /\
  bytes0 i_cmp s1 = [0x81; 0x3d; 0; 0; 0; 0; 0xa0; 0x86; 1; 0] /\ refs (state_of (run0 i_cmp s1)) O = [Rel P0 8 2].
Proof. exact (conj ord_cmp (conj eq_refl (conj eq_refl (conj eq_refl eq_refl)))). Qed.

(** ** C09.  Full statement: [In n (reg_values ev r i) -> ~ 0 <= n <= 15] implies a panic.
    False: only numbers congruent to 16 modulo 256 (the number the macro uses for rip)
    are certain to be rejected; 256 is rax. *)
Theorem C09_partial : forall ev lenv r i g s r' s' n,
  is_instr i = true -> no_imm_var ev r i -> In n (reg_values ev r i) -> u8 n = 16 ->
  compile i = Some g -> exec ev lenv r g s <> Ok r' s'.
Proof. exact rip_rejected. Qed.
Print Assumptions C09_partial.
Theorem C09_refuted : exists ev lenv r i g s r' s' n,
  is_instr i = true /\ no_imm_var ev r i /\ In n (reg_values ev r i) /\ ~ (0 <= n <= 15) /\ compile i = Some g /\
  exec ev lenv r g s = Ok r' s' /\
  forall bs, grows s s' bs -> decode bs = Some (mkIns Mov W64 [OReg W64 0; OReg W64 1], []).
Proof. exact reg256_refuted. Qed.
Print Assumptions C09_refuted.
Example C09_case : In 16 (reg_values ev0 r0 i_reg16) /\ is_instr i_reg16 = true /\ compile i_reg16 <> None.
Proof. split; [left; reflexivity|split; [reflexivity|discriminate]]. Qed.

(** ** C26.  Full statement: as below for every instruction.  False for word-sized
    arithmetic with an immediate, which emits the 0x66 prefix before the range
    check, and for index register 16 (outside [ordinary]). *)
Theorem C26_partial : forall ev lenv r i g s e s',
  ordinary ev r i -> is_cvttsd2siq i = false -> is_word_alu_imm i = false -> compile i = Some g ->
  exec ev lenv r g s = Panic e s' ->
  cursor s + 15 <= PAGE_SIZE -> (forall x, In x (inst_labels i) -> (lenv x < List.length (labels s))%nat) -> s' = s.
Proof. exact reject_main. Qed.
Print Assumptions C26_partial.
Theorem C26_refuted : exists ev lenv r i g s s',
  ordinary ev r i /\ compile i = Some g /\ exec ev lenv r g s = Panic ImmRange s' /\ cursor s' <> cursor s.
Proof. exact addw_refuted. Qed.
Print Assumptions C26_refuted.
Theorem C26_index_refuted : exists ev lenv r i g s s',
  is_instr i = true /\ compile i = Some g /\ exec ev lenv r g s = Panic AssertFailed s' /\ cursor s' <> cursor s.
Proof. exact index_rip_refuted. Qed.
Print Assumptions C26_index_refuted.
Example C26_case : ordinary ev0 r0 i_bigimm /\ is_word_alu_imm i_bigimm = false /\ is_ok (run0 i_bigimm s0) = false /\
  cursor s0 + 15 <= PAGE_SIZE.
Proof. split; [exact ord_bigimm|split; [reflexivity|split; [reflexivity|discriminate]]]. Qed.

(** ** C33.  xchg exchanges the two written operands. *)
Theorem C33 : forall ev lenv r a b g s r' s',
  ordinary ev r (IXchg QWORD a b) -> compile (IXchg QWORD a b) = Some g -> exec ev lenv r g s = Ok r' s' ->
  exists bs oa ob y, grows s s' bs /\ (forall rest, decode (bs ++ rest) = Some (y, rest)) /\
    d_rm (eval ev r) (fun _ => 0) W64 a = Some oa /\ d_rm (eval ev r) (fun _ => 0) W64 b = Some ob /\
    (y = mkIns Xchg W64 [oa; ob] \/ y = mkIns Xchg W64 [ob; oa] \/
     (i_mnem y = Nop /\ oa = OReg W64 0 /\ ob = OReg W64 0)).
Proof. exact xchg_main. Qed.
Print Assumptions C33.
Theorem C33_forms : forall sz a b, compile (IXchg sz a b) <> None -> sz = QWORD /\ is_mem_rm a && is_mem_rm b = false.
Proof. exact xchg_forms. Qed.
Print Assumptions C33_forms.
Example C33_case : ordinary ev0 r0 i_xchg /\ is_ok (run0 i_xchg s0) = true /\ bytes0 i_xchg s0 = [0x49; 0x87; 0x45; 0].
Proof. exact (conj ord_xchg (conj eq_refl eq_refl)). Qed.

(** ** C35.  In-range instructions are accepted (15 bytes is the longest x86 instruction). *)
Theorem C35 : forall ev lenv r i g s,
  ordinary ev r i -> compile i = Some g -> count_is_cl ev r i ->
  (forall e ok, immediate i = Some (e, ok) -> ok (i64 (eval ev r e)) = true) ->
  cursor s + 15 <= PAGE_SIZE -> (forall x, In x (inst_labels i) -> (lenv x < List.length (labels s))%nat) ->
  exists r' s', exec ev lenv r g s = Ok r' s'.
Proof. exact accept_all. Qed.
Print Assumptions C35.
Example C35_case : ordinary ev0 r0 i_shl /\ count_is_cl ev0 r0 i_shl /\ immediate i_shl = Some (lit 3, imm_ok W8) /\
  imm_ok W8 (i64 3) = true /\ bytes0 i_shl s0 = [0x49; 0xc1; 0xe1; 3].
Proof. exact (conj ord_shl (conj I (conj eq_refl (conj eq_refl eq_refl)))). Qed.

(** ** C37.  For ordinary operands the assembler is the partial function "denoted
    instruction": accepted exactly when the operands denote an instruction. *)
Theorem C37 : forall ev lenv r i g s,
  ordinary ev r i -> is_cvttsd2siq i = false -> compile i = Some g ->
  cursor s + 15 <= PAGE_SIZE -> (forall x, In x (inst_labels i) -> (lenv x < List.length (labels s))%nat) ->
  match denote (eval ev r) (fun _ => 0) i with
  | Some x => exists r' s' bs, exec ev lenv r g s = Ok r' s' /\ grows s s' bs /\ reads_as bs x
  | None => exists s', exec ev lenv r g s = Panic ImmRange s'
  end.
Proof. exact total_main. Qed.
Print Assumptions C37.
Example C37_case : ordinary ev0 r0 i_cmp /\ is_cvttsd2siq i_cmp = false /\ compile i_cmp <> None /\
  (lenv0 "x" < List.length (labels s1))%nat.
Proof. split; [exact ord_cmp|split; [reflexivity|split; [discriminate|exact (le_n 1)]]]. Qed.
