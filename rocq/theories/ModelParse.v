(** Model of the parser of monoasm! (monoasm_macro/src/parse.rs, inst.rs, lib.rs 22-29)
    over token trees.

    A parser returns what it read and the tokens left; None where syn reports an error
    or the macro panics: in both cases the program does not compile.  Not modelled: the
    base expression of the block and the comma after it (inst.rs 26-27), spans and
    messages, None-delimited groups.  Tokens left over inside a group make the whole
    parse fail when the group's ParseBuffer is dropped; the model fails at once.
    Two things are parameters: [is_expr], whether the tokens of a group are exactly one
    Rust expression (syn::Expr), and [checks], whether the macro crate is compiled with
    overflow checks, which decides what [-disp] does for -2^31 (parse.rs 446). *)
From Verif Require Import Base ModelSyntax.
Open Scope string_scope.
Open Scope Z_scope.

(** ** Tokens *)
(** syn 2.0.75, ident.rs [accept_as_ident]: words that are not identifiers. *)
Definition keywords : list string :=
  ["_"; "abstract"; "as"; "async"; "await"; "become"; "box"; "break"; "const"; "continue"; "crate"; "do"; "dyn"; "else"; "enum";
   "extern"; "false"; "final"; "fn"; "for"; "if"; "impl"; "in"; "let"; "loop"; "macro"; "match"; "mod"; "move"; "mut"; "override";
   "priv"; "pub"; "ref"; "return"; "Self"; "self"; "static"; "struct"; "super"; "trait"; "true"; "try"; "type"; "typeof"; "unsafe";
   "unsized"; "use"; "virtual"; "where"; "while"; "yield"].
Definition is_ident (s : string) : bool := negb (existsb (String.eqb s) keywords).

Definition parser (A : Type) := list tok -> option (A * list tok).
(** input.peek(Ident), input.peek(token::Paren), input.peek(token::Bracket), input.peek(Token![c]): parse.rs 216, 266,
    280, 384, 390, 394, 417, 482-494. *)
Definition peek_ident (ts : list tok) : bool := match ts with TIdent s :: _ => is_ident s | _ => false end.
Definition peek_paren (ts : list tok) : bool := match ts with TGroup Paren _ :: _ => true | _ => false end.
Definition peek_bracket (ts : list tok) : bool := match ts with TGroup Bracket _ :: _ => true | _ => false end.
Definition peek_punct (c : ascii) (ts : list tok) : bool := match ts with TPunct d :: _ => Ascii.eqb c d | _ => false end.
(** input.parse::<Ident>(), input.parse::<Token![c]>(): where the parsers below are cited. *)
Definition p_ident : parser string :=
  fun ts => match ts with TIdent s :: r => if is_ident s then Some (s, r) else None | _ => None end.
Definition p_punct (c : ascii) : parser unit :=
  fun ts => match ts with TPunct d :: r => if Ascii.eqb c d then Some (tt, r) else None | _ => None end.
(** input.parse::<LitInt>() (parse.rs 288, 415, 491): a literal, or a minus sign and a literal. *)
Definition p_lit : parser Z :=
  fun ts => match ts with
  | TInt v :: r => Some (v, r)
  | TPunct d :: TInt v :: r => if Ascii.eqb "-" d then Some (- v, r) else None
  | _ => None
  end.
Definition peek_lit (ts : list tok) : bool := match p_lit ts with Some _ => true | None => false end.
(** input.parse::<LitFloat>()?.base10_parse::<f64>(): the bit pattern; a minus sign sets the sign bit. *)
Definition p_float : parser Z :=
  fun ts => match ts with
  | TFloat b :: r => Some (b, r)
  | TPunct d :: TFloat b :: r => if Ascii.eqb "-" d then Some (b + 2 ^ 63, r) else None
  | _ => None
  end.
Definition peek_float (ts : list tok) : bool := match p_float ts with Some _ => true | None => false end.
(** parse.rs 427-429 [is_single]. *)
Definition is_single (ts : list tok) : bool :=
  match ts with _ :: r => peek_punct "," r || peek_punct ";" r | [] => false end.

(** String operations: parse.rs 66-68 (make_ascii_lowercase). *)
Definition lower_ascii (c : ascii) : ascii :=
  let n := nat_of_ascii c in if (Nat.leb 65 n && Nat.leb n 90)%bool then ascii_of_nat (n + 32) else c.
Fixpoint lower (s : string) : string :=
  match s with EmptyString => EmptyString | String c r => String (lower_ascii c) (lower r) end.
(** The decimal number written by a non-empty string of digits (str::parse::<u8>; the
    bound is checked by the caller). *)
Fixpoint digits (s : string) (acc : Z) : option Z :=
  match s with
  | EmptyString => Some acc
  | String c r =>
      let n := nat_of_ascii c in
      if (Nat.leb 48 n && Nat.leb n 57)%bool then digits r (10 * acc + Z.of_nat (n - 48)) else None
  end.
Definition starts_with (p s : string) : bool := String.prefix p s.
Definition from_ (n : nat) (s : string) : string := String.substring n (String.length s - n) s.    (* &s[n..] *)

Section Parse.
Variable is_expr : list tok -> bool.
Variable checks : bool.

(** ** Operands *)
(** parse.rs 66-91 [Reg::from_str]. *)
Definition reg_names : list (string * Z) :=
  [("rax", 0); ("rcx", 1); ("cl", 1); ("rdx", 2); ("rbx", 3); ("rsp", 4); ("rbp", 5); ("rsi", 6); ("rdi", 7);
   ("r8", 8); ("r9", 9); ("r10", 10); ("r11", 11); ("r12", 12); ("r13", 13); ("r14", 14); ("r15", 15); ("rip", 16)].
Fixpoint assoc {A} (s : string) (l : list (string * A)) : option A :=
  match l with [] => None | (k, v) :: r => if String.eqb s k then Some v else assoc s r end.
Definition reg_from_str (s : string) : option Z := assoc (lower s) reg_names.
(** parse.rs 156, 172, 485: parenthesized!(content in input); content.parse::<Expr>(). *)
Definition p_paren_expr : parser expr :=
  fun ts => match ts with TGroup Paren g :: r => if is_expr g then Some (EToks g, r) else None | _ => None end.
(** parse.rs 168-180 [parse_register]; 152-166 [check_register] is the same with
    Ok(None) for a name that is no register. *)
Definition parse_register (s : string) : parser register :=
  fun ts =>
    if String.eqb s "R" then match p_paren_expr ts with Some (e, r) => Some (RExpr e, r) | None => None end
    else match reg_from_str s with Some n => Some (RReg n, ts) | None => None end.
Definition check_register (s : string) : parser (option register) :=
  fun ts =>
    if String.eqb s "R" then match p_paren_expr ts with Some (e, r) => Some (Some (RExpr e), r) | None => None end
    else match reg_from_str s with Some n => Some (Some (RReg n), ts) | None => Some (None, ts) end.
(** parse.rs 126-130 [Parse for Register]. *)
Definition p_register : parser register :=
  fun ts => match p_ident ts with Some (s, r) => parse_register s r | None => None end.
(** input.parse::<Group>(), its stream: parse.rs 195, 392, 419; inst.rs 586, 644, 697, 734, 823. *)
Definition p_group_stream : parser expr :=
  fun ts => match ts with TGroup Paren g :: r => Some (EToks g, r) | _ => None end.
(** parse.rs 191-212 and inst.rs 730-751 [parse_xmm]. *)
Definition parse_xmm (s : string) : parser expr :=
  fun ts =>
    if Nat.eqb (String.length s) 3 then p_group_stream ts
    else match digits (from_ 3 s) 0 with Some n => if n <=? 15 then Some (ELit n, ts) else None | None => None end.
(** parse.rs 214-227 [Parse for Xmm]. *)
Definition p_xmm : parser xmm :=
  fun ts => match p_ident ts with Some (s, r) => if starts_with "xmm" s then parse_xmm s r else None | None => None end.
(** parse.rs 480-500 [Parse for Disp]. *)
Definition p_disp : parser pdisp :=
  fun ts =>
    if peek_paren ts then match p_paren_expr ts with Some (e, r) => Some (PExpr false e, r) | None => None end
    else if peek_lit ts then
      match p_lit ts with Some (v, r) => if in_i32 v then Some (PImm v, r) else None | None => None end
    else match p_ident ts with Some (s, r) => Some (PLabel s, r) | None => None end.
(** parse.rs 443-451 [Disp::neg]. *)
Definition neg_disp (d : pdisp) : option pdisp :=
  match d with
  | PImm v => if v =? - 2 ^ 31 then if checks then None else Some (PImm v) else Some (PImm (- v))
  | PExpr _ e => Some (PExpr true e)
  | PLabel x => Some (PLabel x)
  end.
Definition p_disp_sign (negate : bool) : parser pdisp :=
  fun ts => match p_disp ts with
  | Some (d, r) => if negate then match neg_disp d with Some d' => Some (d', r) | None => None end else Some (d, r)
  | None => None
  end.
(** parse.rs 266-271, 296-301: a sign, if there is one: true for '-'. *)
Definition p_sign : parser (option bool) :=
  fun ts => if peek_punct "-" ts then Some (Some true, tl ts) else if peek_punct "+" ts then Some (Some false, tl ts) else Some (None, ts).
(** parse.rs 284-296: the scale. *)
Definition p_scale : parser Z :=
  fun ts =>
    if peek_punct "*" ts then
      match p_lit (tl ts) with
      | Some (v, r) => if v =? 1 then Some (0, r) else if v =? 2 then Some (1, r) else if v =? 4 then Some (2, r) else if v =? 8 then Some (3, r) else None
      | None => None
      end
    else Some (0, ts).
(** parse.rs 261-338 [Parse for IndAddr]: the tokens between the brackets. *)
Definition p_ind_body : parser ind_addr :=
  fun ts =>
    match p_register ts with
    | None => None
    | Some (base, r) =>
        match p_sign r with
        | Some (Some true, r2) => match p_disp_sign true r2 with Some (d, r3) => Some (mkInd base PScaleNone d, r3) | None => None end
        | Some (Some false, r2) =>
            if peek_ident r2 then
              match p_ident r2 with
              | None => None
              | Some (s, r3) =>
                  match check_register s r3 with
                  | None => None
                  | Some (Some reg, r4) =>
                      match p_scale r4 with
                      | None => None
                      | Some (k, r5) =>
                          match p_sign r5 with
                          | Some (Some n, r6) => match p_disp_sign n r6 with Some (d, r7) => Some (mkInd base (PS1 k reg) d, r7) | None => None end
                          | _ => Some (mkInd base (PS1 k reg) (PImm 0), r5)
                          end
                      end
                  | Some (None, r4) => Some (mkInd base PScaleNone (PLabel s), r4)
                  end
              end
            else match p_disp r2 with Some (d, r3) => Some (mkInd base PScaleNone d, r3) | None => None end
        | _ => Some (mkInd base PScaleNone (PImm 0), r)
        end
    end.
Definition p_ind : parser ind_addr :=
  fun ts => match ts with
  | TGroup Bracket g :: r => match p_ind_body g with Some (a, []) => Some (a, r) | _ => None end
  | _ => None
  end.
(** inst.rs 518-531 [Parse for RmOperand]. *)
Definition p_rm : parser rm_operand :=
  fun ts =>
    if peek_ident ts then match p_register ts with Some (x, r) => Some (RmReg x, r) | None => None end
    else if peek_bracket ts then match p_ind ts with Some (a, r) => Some (RmInd a, r) | None => None end
    else None.
(** inst.rs 577, 638, 691, 814, parse.rs 413: [input.peek(LitInt) && is_single(input)] and the parse that follows. *)
Definition p_imm_lit : parser expr := fun ts => match p_lit ts with Some (v, r) => Some (ELit v, r) | None => None end.
(** inst.rs 570-592 [Parse for RmiOperand]. *)
Definition p_rmi : parser rmi_operand :=
  fun ts =>
    if peek_ident ts then match p_ident ts with Some (s, r) => match parse_register s r with Some (x, r') => Some (RmiReg x, r') | None => None end | None => None end
    else if peek_lit ts && is_single ts then match p_imm_lit ts with Some (e, r) => Some (RmiImm e, r) | None => None end
    else if peek_bracket ts then match p_ind ts with Some (a, r) => Some (RmiInd a, r) | None => None end
    else if peek_paren ts then match p_group_stream ts with Some (e, r) => Some (RmiImm e, r) | None => None end
    else None.
(** inst.rs 632-650 [Parse for RiOperand]. *)
Definition p_ri : parser ri_operand :=
  fun ts =>
    if peek_ident ts then match p_register ts with Some (x, r) => Some (RiReg x, r) | None => None end
    else if peek_lit ts && is_single ts then match p_imm_lit ts with Some (e, r) => Some (RiImm e, r) | None => None end
    else if peek_paren ts then match p_group_stream ts with Some (e, r) => Some (RiImm e, r) | None => None end
    else None.
(** inst.rs 689-703 [Parse for ImmOperand]; parse.rs 411-425 [Parse for Immediate]. *)
Definition p_imm : parser expr :=
  fun ts => if peek_lit ts && is_single ts then p_imm_lit ts else if peek_paren ts then p_group_stream ts else None.
(** inst.rs 753-768 [Parse for XmOperand]. *)
Definition p_xm : parser xm_operand :=
  fun ts =>
    if peek_ident ts then match p_xmm ts with Some (e, r) => Some (XmXmm e, r) | None => None end
    else if peek_bracket ts then match p_ind ts with Some (a, r) => Some (XmInd a, r) | None => None end
    else None.
(** inst.rs 802-829 [Parse for MovOperand]. *)
Definition p_mov : parser mov_operand :=
  fun ts =>
    if peek_ident ts then
      match p_ident ts with
      | None => None
      | Some (s, r) =>
          if String.eqb s "qword" then match p_imm r with Some (e, r') => Some (MovImm e (Some QWORD), r') | None => None end
          else if starts_with "xmm" s then match parse_xmm s r with Some (e, r') => Some (MovXmm e, r') | None => None end
          else match parse_register s r with Some (x, r') => Some (MovReg x, r') | None => None end
      end
    else if peek_lit ts && is_single ts then match p_imm_lit ts with Some (e, r) => Some (MovImm e None, r) | None => None end
    else if peek_bracket ts then match p_ind ts with Some (a, r) => Some (MovInd a, r) | None => None end
    else if peek_paren ts then match p_group_stream ts with Some (e, r) => Some (MovImm e None, r) | None => None end
    else None.
(** parse.rs 381-401 [Parse for Dest]. *)
Definition p_dest : parser dest :=
  fun ts =>
    if peek_ident ts && is_single ts then
      match p_ident ts with
      | Some (s, r) => match reg_from_str s with Some n => Some (DestReg n, r) | None => Some (DestRel s, r) end
      | None => None
      end
    else if peek_paren ts then match p_group_stream ts with Some (e, r) => Some (DestDisp e, r) | None => None end
    else if peek_bracket ts then match p_ind ts with Some (a, r) => Some (DestInd a, r) | None => None end
    else None.

(** ** Statements *)
(** inst.rs 216-303: the local macros parse_0op .. parse_3op. *)
Definition p0 (i : inst) : parser inst := fun ts => match p_punct ";" ts with Some (_, r) => Some (i, r) | None => None end.
Definition p1 {A} (p : parser A) (f : A -> inst) : parser inst :=
  fun ts => match p ts with Some (a, r) => p0 (f a) r | None => None end.
Definition p_comma {A B} (p : parser A) (q : A -> parser B) : parser B :=
  fun ts => match p ts with
  | Some (a, r) => match p_punct "," r with Some (_, r') => q a r' | None => None end
  | None => None
  end.
Definition p2 {A B} (p : parser A) (q : parser B) (f : A -> B -> inst) : parser inst := p_comma p (fun a => p1 q (f a)).
Definition p3 {A B C} (p : parser A) (q : parser B) (t : parser C) (f : A -> B -> C -> inst) : parser inst :=
  p_comma p (fun a => p_comma q (fun b => p1 t (f a b))).
(** inst.rs 174-212 [Cond::from]. *)
Definition conds : list (string * cond) :=
  [("o", CO); ("no", CNo); ("b", CB); ("c", CB); ("nae", CB); ("ae", CAe); ("nc", CAe); ("eq", CEq); ("e", CEq); ("z", CEq);
   ("ne", CNe); ("nz", CNe); ("be", CBe); ("na", CBe); ("a", CA); ("nbe", CA); ("s", CS); ("ns", CNs); ("p", CP); ("pe", CP);
   ("np", CNp); ("po", CNp); ("lt", CLt); ("l", CLt); ("nge", CLt); ("ge", CGe); ("nl", CGe); ("le", CLe); ("ng", CLe);
   ("gt", CGt); ("g", CGt); ("nle", CGt)].
Definition p_jcc (c : cond) : parser inst := p1 p_ident (IJcc c).
(** inst.rs 454-466: dq. *)
Definition in_i64 (v : Z) : bool := (- 2 ^ 63 <=? v) && (v <? 2 ^ 63).
Definition p_dq : parser inst :=
  fun ts =>
    if peek_float ts then match p_float ts with Some (b, r) => p0 (IF64 b) r | None => None end
    else if peek_lit ts then match p_lit ts with Some (v, r) => if in_i64 v then p0 (II64 v) r else None | None => None end
    else None.
(** inst.rs 311-466: the arms with a literal mnemonic. *)
Definition mnemonics : list (string * parser inst) :=
  [("movq", p2 p_mov p_mov IMovq);
   ("movl", p2 p_rm p_rmi IMovl);
   ("movw", p2 p_rm p_rmi IMovw);
   ("movb", p2 p_rm p_rmi IMovb);
   ("movsxl", p2 p_register p_rm IMovsxl);
   ("movzxw", p2 p_register p_rm IMovzxw);
   ("movsxw", p2 p_register p_rm IMovsxw);
   ("movzxb", p2 p_register p_rm IMovzxb);
   ("movsxb", p2 p_register p_rm IMovsxb);
   ("addq", p2 p_rm p_rmi (IAdd QWORD)); ("addl", p2 p_rm p_rmi (IAdd DWORD)); ("addw", p2 p_rm p_rmi (IAdd WORD)); ("addb", p2 p_rm p_rmi (IAdd BYTE));
   ("orq", p2 p_rm p_rmi (IOr QWORD)); ("orl", p2 p_rm p_rmi (IOr DWORD)); ("orw", p2 p_rm p_rmi (IOr WORD)); ("orb", p2 p_rm p_rmi (IOr BYTE));
   ("adcq", p2 p_rm p_rmi (IAdc QWORD)); ("adcl", p2 p_rm p_rmi (IAdc DWORD)); ("adcw", p2 p_rm p_rmi (IAdc WORD)); ("adcb", p2 p_rm p_rmi (IAdc BYTE));
   ("sbbq", p2 p_rm p_rmi (ISbb QWORD)); ("sbbl", p2 p_rm p_rmi (ISbb DWORD)); ("sbbw", p2 p_rm p_rmi (ISbb WORD)); ("sbbb", p2 p_rm p_rmi (ISbb BYTE));
   ("andq", p2 p_rm p_rmi (IAnd QWORD)); ("andl", p2 p_rm p_rmi (IAnd DWORD)); ("andw", p2 p_rm p_rmi (IAnd WORD)); ("andb", p2 p_rm p_rmi (IAnd BYTE));
   ("subq", p2 p_rm p_rmi (ISub QWORD)); ("subl", p2 p_rm p_rmi (ISub DWORD)); ("subw", p2 p_rm p_rmi (ISub WORD)); ("subb", p2 p_rm p_rmi (ISub BYTE));
   ("xorq", p2 p_rm p_rmi (IXor QWORD)); ("xorl", p2 p_rm p_rmi (IXor DWORD)); ("xorw", p2 p_rm p_rmi (IXor WORD)); ("xorb", p2 p_rm p_rmi (IXor BYTE));
   ("cmpq", p2 p_rm p_rmi (ICmp QWORD)); ("cmpl", p2 p_rm p_rmi (ICmp DWORD)); ("cmpw", p2 p_rm p_rmi (ICmp WORD)); ("cmpb", p2 p_rm p_rmi (ICmp BYTE));
   ("xchgq", p2 p_rm p_rm (IXchg QWORD)); ("xchgl", p2 p_rm p_rm (IXchg DWORD)); ("xchgw", p2 p_rm p_rm (IXchg WORD)); ("xchgb", p2 p_rm p_rm (IXchg BYTE));
   ("negq", p1 p_rm INegq);
   ("imul", p2 p_rmi p_rmi IImul);
   ("idiv", p1 p_rm IIdiv);
   ("idivq", p1 p_rm IIdiv);
   ("idivl", p1 p_rm IIdivl);
   ("div", p1 p_rm IDiv);
   ("divq", p1 p_rm IDiv);
   ("divl", p1 p_rm IDivl);
   ("testq", p2 p_rm p_ri ITestq);
   ("testb", p2 p_rm p_ri ITestb);
   ("lea", p2 p_rm p_rm ILea);
   ("cqo", p0 ICqo);
   ("cdq", p0 ICdq);
   ("int3", p0 IInt3);
   ("shlq", p2 p_rm p_ri (IShl QWORD)); ("shrq", p2 p_rm p_ri (IShr QWORD)); ("salq", p2 p_rm p_ri (ISal QWORD));
   ("sarq", p2 p_rm p_ri (ISar QWORD)); ("rolq", p2 p_rm p_ri (IRol QWORD)); ("rorq", p2 p_rm p_ri (IRor QWORD));
   ("shll", p2 p_rm p_ri (ISal DWORD)); ("shrl", p2 p_rm p_ri (IShr DWORD)); ("sall", p2 p_rm p_ri (ISal DWORD));
   ("sarl", p2 p_rm p_ri (ISar DWORD)); ("roll", p2 p_rm p_ri (IRol DWORD)); ("rorl", p2 p_rm p_ri (IRor DWORD));
   ("movsd", p2 p_xm p_xm IMovsd);
   ("addsd", p2 p_xmm p_xm IAddsd);
   ("subsd", p2 p_xmm p_xm ISubsd);
   ("mulsd", p2 p_xmm p_xm IMulsd);
   ("divsd", p2 p_xmm p_xm IDivsd);
   ("minsd", p2 p_xmm p_xm IMinsd);
   ("maxsd", p2 p_xmm p_xm IMaxsd);
   ("xorps", p2 p_xmm p_xm IXorps);
   ("ucomisd", p2 p_xmm p_xm IUComIsd);
   ("andpd", p2 p_xmm p_xm IAndpd);
   ("xorpd", p2 p_xmm p_xm IXorpd);
   ("roundpd", p3 p_xmm p_xm p_imm IRoundpd);
   ("cvtsi2sdq", p2 p_xmm p_rm ICvtsi2sdq);
   ("cvttsd2siq", p2 p_register p_xm ICvttsd2siq);
   ("sqrtpd", p2 p_xmm p_xm ISqrtpd);
   ("sqrtsd", p2 p_xmm p_xm ISqrtsd);
   ("pushq", p1 p_rm IPushq);
   ("popq", p1 p_rm IPopq);
   ("call", p1 p_dest ICall);
   ("ret", p0 IRet);
   ("jmp", p1 p_dest IJmp);
   ("jo", p_jcc CO); ("jno", p_jcc CNo); ("jb", p_jcc CB); ("jc", p_jcc CB); ("jnae", p_jcc CB); ("jae", p_jcc CAe); ("jnc", p_jcc CAe);
   ("jeq", p_jcc CEq); ("je", p_jcc CEq); ("jz", p_jcc CEq); ("jne", p_jcc CNe); ("jnz", p_jcc CNe); ("jbe", p_jcc CBe); ("jna", p_jcc CBe);
   ("ja", p_jcc CA); ("jnbe", p_jcc CA); ("js", p_jcc CS); ("jns", p_jcc CNs); ("jp", p_jcc CP); ("jpe", p_jcc CP); ("jnp", p_jcc CNp);
   ("jpo", p_jcc CNp); ("jlt", p_jcc CLt); ("jnge", p_jcc CLt); ("jge", p_jcc CGe); ("jnl", p_jcc CGe); ("jle", p_jcc CLe); ("jng", p_jcc CLe);
   ("jgt", p_jcc CGt); ("jnle", p_jcc CGt);
   ("syscall", p0 ISyscall);
   ("leave", p0 ILeave);
   ("lzcntq", p2 p_register p_rm (ILzcnt QWORD)); ("tzcntq", p2 p_register p_rm (ITzcnt QWORD)); ("popcntq", p2 p_register p_rm (IPopcnt QWORD));
   ("lzcntl", p2 p_register p_rm (ILzcnt DWORD)); ("tzcntl", p2 p_register p_rm (ITzcnt DWORD)); ("popcntl", p2 p_register p_rm (IPopcnt DWORD));
   ("dq", p_dq)].
(** inst.rs 468-488 [cmov..], 490-499 [set..]. *)
Definition last_char (s : string) : option ascii := String.get (String.length s - 1) s.
Definition p_cmov (s : string) : parser inst :=
  fun ts =>
    match match last_char s with Some "q"%char => Some QWORD | Some "l"%char => Some DWORD | Some "w"%char => Some WORD | _ => None end with
    | None => None
    | Some w =>
        if Nat.leb (String.length s) 5 then None
        else match assoc (String.substring 4 (String.length s - 5) s) conds with
             | None => None
             | Some c => p2 p_register p_rm (ICmovcc w c) ts
             end
    end.
Definition p_set (s : string) : parser inst :=
  fun ts =>
    if Nat.leb (String.length s) 3 then None
    else match assoc (from_ 3 s) conds with None => None | Some c => p1 p_rm (ISetcc c) ts end.
(** inst.rs 310-502: the match on the mnemonic. *)
Definition p_mnemonic (s : string) : parser inst :=
  fun ts =>
    match assoc s mnemonics with
    | Some p => p ts
    | None => if starts_with "cmov" s then p_cmov s ts else if starts_with "set" s then p_set s ts else None
    end.
(** inst.rs 214-505 [Parse for Inst]. *)
Definition p_inst : parser inst :=
  fun ts =>
    match p_ident ts with
    | None => None
    | Some (s, r) => if peek_punct ":" r then Some (ILabel s, tl r) else p_mnemonic s r
    end.
(** inst.rs 24-42 [Parse for Stmts], after the base expression and the comma.  Every
    statement takes at least one token: [n] is the number of tokens left. *)
Fixpoint p_stmts_n (n : nat) (ts : list tok) : option (list inst) :=
  match ts, n with
  | [], _ => Some []
  | _ :: _, O => None
  | _ :: _, S n' =>
      match p_inst ts with
      | Some (i, r) => match p_stmts_n n' r with Some is => Some (i :: is) | None => None end
      | None => None
      end
  end.
Definition p_stmts (ts : list tok) : option (list inst) := p_stmts_n (List.length ts) ts.
End Parse.
