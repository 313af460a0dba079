(** Specification: the written language of monoasm!, as a grammar over token trees.

    [g_stmt quirks w i] says that the tokens [w] are one statement standing for [i].
    With [quirks = false] it is the documented syntax (README and the comments in the
    parser); [quirks = true] adds, constructor by constructor, the other spellings the
    macro accepts.  Nothing here refers to the parser. *)
From Verif Require Import Base ModelSyntax SpecX86 SpecAsm.
Open Scope string_scope.
Local Open Scope list_scope.
Local Open Scope Z_scope.

(** ** Words *)
(** Rust Reference, "Keywords": strict, those of edition 2018, reserved; and the underscore. *)
Definition reserved : list string :=
  ["as"; "break"; "const"; "continue"; "crate"; "else"; "enum"; "extern"; "false"; "fn"; "for"; "if"; "impl"; "in"; "let"; "loop";
   "match"; "mod"; "move"; "mut"; "pub"; "ref"; "return"; "self"; "Self"; "static"; "struct"; "super"; "trait"; "true"; "type";
   "unsafe"; "use"; "where"; "while"; "async"; "await"; "dyn";
   "abstract"; "become"; "box"; "do"; "final"; "macro"; "override"; "priv"; "typeof"; "unsized"; "virtual"; "yield"; "try"; "_"].
Definition name (s : string) : Prop := ~ In s reserved.

(** Equality up to ASCII case. *)
Definition same_char (a b : ascii) : Prop :=
  a = b \/ exists n, (65 <= n <= 90)%nat /\ a = ascii_of_nat n /\ b = ascii_of_nat (n + 32)
        \/ (65 <= n <= 90)%nat /\ b = ascii_of_nat n /\ a = ascii_of_nat (n + 32).
Inductive same_word : string -> string -> Prop :=
| same_nil : same_word "" ""
| same_cons a b s t : same_char a b -> same_word s t -> same_word (String a s) (String b t).

(** Register names and numbers; 16 stands for rip. *)
Definition registers : list (Z * string) :=
  [(0, "rax"); (1, "rcx"); (2, "rdx"); (3, "rbx"); (4, "rsp"); (5, "rbp"); (6, "rsi"); (7, "rdi"); (8, "r8"); (9, "r9"); (10, "r10");
   (11, "r11"); (12, "r12"); (13, "r13"); (14, "r14"); (15, "r15"); (16, "rip"); (1, "cl")].
Definition register_name (s : string) (n : Z) : Prop := exists t, In (n, t) registers /\ same_word s t.
Definition label_name (s : string) : Prop := name s /\ forall n, ~ register_name s n.

(** Decimal numbers. *)
Inductive digit : ascii -> Z -> Prop := is_digit n : (n <= 9)%nat -> digit (ascii_of_nat (48 + n)) (Z.of_nat n).
Inductive decimal : string -> Z -> Prop :=
| dec_one c d : digit c d -> decimal (String c "") d
| dec_more s n c d : decimal s n -> digit c d -> decimal (s ++ String c "") (10 * n + d).

Section Grammar.
(** Which token lists are Rust expressions. *)
Variable expression : list tok -> Prop.
(** Whether a negation overflow stops the macro. *)
Variable checked : bool.
Variable quirks : bool.

(** ** Operands *)
Inductive g_int : list tok -> Z -> Prop :=
| gi_pos v : g_int [TInt v] v
| gi_neg v : g_int [TPunct "-"; TInt v] (- v).
Inductive g_float : list tok -> Z -> Prop :=
| gf_pos b : g_float [TFloat b] b
| gf_neg b : g_float [TPunct "-"; TFloat b] (b + 2 ^ 63).
(** rax, R(expr) *)
Inductive g_register : list tok -> register -> Prop :=
| gr_name s n : register_name s n -> g_register [TIdent s] (RReg n)
| gr_expr e : expression e -> g_register [TIdent "R"; TGroup Paren e] (RExpr (EToks e)).
(** xmm3, xmm(expr) *)
Inductive g_xmm : list tok -> expr -> Prop :=
| gx_name s n : decimal s n -> n <= 15 -> g_xmm [TIdent ("xmm" ++ s)] (ELit n)
| gx_expr e : g_xmm [TIdent "xmm"; TGroup Paren e] (EToks e).
(** 42, (expr) *)
Inductive g_imm : list tok -> expr -> Prop :=
| gm_lit v : g_imm [TInt v] (ELit v)
| gm_expr e : g_imm [TGroup Paren e] (EToks e).
(** 4, -4, (expr) *)
Inductive g_disp : list tok -> pdisp -> Prop :=
| gd_lit w v : g_int w v -> in_i32 v = true -> g_disp w (PImm v)
| gd_expr e : expression e -> g_disp [TGroup Paren e] (PExpr false (EToks e)).
(** Sign and displacement in a memory operand, after a base alone or after base + index. *)
Inductive g_offset (indexed : bool) : list tok -> pdisp -> Prop :=
| go_plus w d : g_disp w d -> g_offset indexed (TPunct "+" :: w) d
| go_plus_label x : label_name x -> (indexed = true \/ x <> "R") -> g_offset indexed [TPunct "+"; TIdent x] (PLabel x)
| go_minus_lit w v : g_int w v -> in_i32 v = true -> in_i32 (- v) = true -> g_offset indexed (TPunct "-" :: w) (PImm (- v))
| go_minus_expr e : expression e -> g_offset indexed [TPunct "-"; TGroup Paren e] (PExpr true (EToks e))
(* a minus sign before a name is ignored and the name taken for a label *)
| go_quirk_minus x : quirks = true -> name x -> g_offset indexed [TPunct "-"; TIdent x] (PLabel x)
(* a register name after base + index is taken for a label *)
| go_quirk_label x n : quirks = true -> indexed = true -> register_name x n -> g_offset indexed [TPunct "+"; TIdent x] (PLabel x)
(* the negation of -2^31 overflows *)
| go_quirk_min w : quirks = true -> checked = false -> g_int w (- 2 ^ 31) -> g_offset indexed (TPunct "-" :: w) (PImm (- 2 ^ 31)).
Inductive g_scale : list tok -> Z -> Prop :=
| gs_none : g_scale [] 0
| gs_times w k : 0 <= k <= 3 -> g_int w (2 ^ k) -> g_scale (TPunct "*" :: w) k.
(** [base], [base +- disp], [base + index * scale], [base + index * scale +- disp] *)
Inductive g_address : list tok -> ind_addr -> Prop :=
| ga_base w b : g_register w b -> g_address w (mkInd b PScaleNone (PImm 0))
| ga_disp w b w' d : g_register w b -> g_offset false w' d -> g_address (w ++ w') (mkInd b PScaleNone d)
| ga_index w b wi r ws k : g_register w b -> g_register wi r -> g_scale ws k ->
    g_address (w ++ TPunct "+" :: wi ++ ws) (mkInd b (PS1 k r) (PImm 0))
| ga_full w b wi r ws k w' d : g_register w b -> g_register wi r -> g_scale ws k -> g_offset true w' d ->
    g_address (w ++ TPunct "+" :: wi ++ ws ++ w') (mkInd b (PS1 k r) d).
Inductive g_mem : list tok -> ind_addr -> Prop := g_brackets w a : g_address w a -> g_mem [TGroup Bracket w] a.

(** The operands of an instruction in the order in which they are written. *)
Inductive arg :=
| AReg (r : register) | ARm (o : rm_operand) | ARmi (o : rmi_operand) | ARi (o : ri_operand) | AXmm (e : expr) | AXm (o : xm_operand)
| AMov (o : mov_operand) | AImm (e : expr) | ADest (d : dest) | ALabel (x : string) | AInt (v : Z) | AFloat (b : Z).
Definition g_arg (w : list tok) (a : arg) : Prop :=
  match a with
  | AReg r | ARm (RmReg r) | ARmi (RmiReg r) | ARi (RiReg r) | AMov (MovReg r) => g_register w r
  | ARm (RmInd m) | ARmi (RmiInd m) | AXm (XmInd m) | AMov (MovInd m) | ADest (DestInd m) => g_mem w m
  | AXmm e | AXm (XmXmm e) | AMov (MovXmm e) => g_xmm w e
  | ARmi (RmiImm e) | ARi (RiImm e) | AImm e | AMov (MovImm e None) => g_imm w e
  | AMov (MovImm e (Some QWORD)) => exists w', w = TIdent "qword" :: w' /\ g_imm w' e
  | AMov (MovImm e (Some _)) => False
  | ADest (DestReg n) => exists s, w = [TIdent s] /\ register_name s n
  | ADest (DestRel x) => w = [TIdent x] /\ label_name x
  | ADest (DestDisp e) => exists g, w = [TGroup Paren g] /\ e = EToks g
  | ALabel x => w = [TIdent x] /\ name x
  | AInt v => g_int w v /\ - 2 ^ 63 <= v < 2 ^ 63
  | AFloat b => g_float w b
  end.

(** ** Instructions *)
(** Condition suffixes. *)
Definition cc_names (c : cond) : list string :=
  match c with
  | CO => ["o"] | CNo => ["no"] | CB => ["b"; "c"; "nae"] | CAe => ["ae"; "nc"] | CEq => ["e"; "z"; "eq"] | CNe => ["ne"; "nz"]
  | CBe => ["be"; "na"] | CA => ["a"; "nbe"] | CS => ["s"] | CNs => ["ns"] | CP => ["p"; "pe"] | CNp => ["np"; "po"]
  | CLt => ["l"; "nge"; "lt"] | CGe => ["ge"; "nl"] | CLe => ["le"; "ng"] | CGt => ["g"; "nle"; "gt"]
  end.
(** jl and jg are not accepted. *)
Definition jcc_names (c : cond) : list string := filter (fun s => negb (String.eqb s "l" || String.eqb s "g")) (cc_names c).
Definition suffix (sz : opsize) : string := match sz with QWORD => "q" | DWORD => "l" | WORD => "w" | BYTE => "b" end.
Definition sized (stem : string) (sz : opsize) : list string := [(stem ++ suffix sz)%string].
(** with suffixes q and l only *)
Definition sized2 (stem : string) (sz : opsize) : list string :=
  match sz with QWORD | DWORD => [(stem ++ suffix sz)%string] | _ => [] end.
(** The spellings of the mnemonic of an instruction. *)
Definition spelled (i : inst) : list string :=
  match i with
  | ILabel _ => []
  | IF64 _ | II64 _ => ["dq"]
  | IMovq _ _ => ["movq"] | IMovl _ _ => ["movl"] | IMovw _ _ => ["movw"] | IMovb _ _ => ["movb"]
  | IMovsxl _ _ => ["movsxl"] | IMovzxw _ _ => ["movzxw"] | IMovsxw _ _ => ["movsxw"] | IMovzxb _ _ => ["movzxb"] | IMovsxb _ _ => ["movsxb"]
  | IAdd s _ _ => sized "add" s | ISub s _ _ => sized "sub" s | IAdc s _ _ => sized "adc" s | ISbb s _ _ => sized "sbb" s
  | IAnd s _ _ => sized "and" s | IOr s _ _ => sized "or" s | IXor s _ _ => sized "xor" s | ICmp s _ _ => sized "cmp" s
  | IXchg s _ _ => sized "xchg" s
  | INegq _ => ["negq"]
  | IShl QWORD _ _ => ["shlq"] | IShl _ _ _ => []
  | ISal DWORD _ _ => ["sall"; "shll"] | ISal QWORD _ _ => ["salq"] | ISal _ _ _ => []
  | IShr s _ _ => sized2 "shr" s | ISar s _ _ => sized2 "sar" s | IRol s _ _ => sized2 "rol" s | IRor s _ _ => sized2 "ror" s
  | IImul _ _ => ["imul"]
  | IIdiv _ => ["idiv"; "idivq"] | IIdivl _ => ["idivl"] | IDiv _ => ["div"; "divq"] | IDivl _ => ["divl"]
  | ILea _ _ => ["lea"] | ITestq _ _ => ["testq"] | ITestb _ _ => ["testb"]
  | ISetcc c _ => map (fun n => ("set" ++ n)%string) (cc_names c)
  | ICmovcc BYTE _ _ _ => []
  | ICmovcc s c _ _ => map (fun n => ("cmov" ++ n ++ suffix s)%string) (cc_names c)
  | IJcc c _ => map (fun n => ("j" ++ n)%string) (jcc_names c)
  | ICqo => ["cqo"] | ICdq => ["cdq"] | IInt3 => ["int3"] | ILeave => ["leave"] | IRet => ["ret"] | ISyscall => ["syscall"]
  | IMovsd _ _ => ["movsd"] | IAddsd _ _ => ["addsd"] | ISubsd _ _ => ["subsd"] | IMulsd _ _ => ["mulsd"] | IDivsd _ _ => ["divsd"]
  | IMinsd _ _ => ["minsd"] | IMaxsd _ _ => ["maxsd"] | IXorps _ _ => ["xorps"] | IUComIsd _ _ => ["ucomisd"]
  | IAndpd _ _ => ["andpd"] | IXorpd _ _ => ["xorpd"] | IRoundpd _ _ _ => ["roundpd"]
  | ICvtsi2sdq _ _ => ["cvtsi2sdq"] | ICvttsd2siq _ _ => ["cvttsd2siq"] | ISqrtpd _ _ => ["sqrtpd"] | ISqrtsd _ _ => ["sqrtsd"]
  | IPushq _ => ["pushq"] | IPopq _ => ["popq"] | IJmp _ => ["jmp"] | ICall _ => ["call"]
  | ILzcnt s _ _ => sized2 "lzcnt" s | ITzcnt s _ _ => sized2 "tzcnt" s | IPopcnt s _ _ => sized2 "popcnt" s
  end.
Definition args (i : inst) : list arg :=
  match i with
  | ILabel _ | ICqo | ICdq | IInt3 | ILeave | IRet | ISyscall => []
  | IF64 b => [AFloat b]
  | II64 v => [AInt v]
  | IMovq a b => [AMov a; AMov b]
  | IMovl a b | IMovw a b | IMovb a b | IAdd _ a b | ISub _ a b | IAdc _ a b | ISbb _ a b | IAnd _ a b | IOr _ a b | IXor _ a b | ICmp _ a b =>
      [ARm a; ARmi b]
  | IMovsxl a b | IMovzxw a b | IMovsxw a b | IMovzxb a b | IMovsxb a b | ICmovcc _ _ a b | ILzcnt _ a b | ITzcnt _ a b | IPopcnt _ a b =>
      [AReg a; ARm b]
  | IXchg _ a b | ILea a b => [ARm a; ARm b]
  | INegq a | IIdiv a | IIdivl a | IDiv a | IDivl a | ISetcc _ a | IPushq a | IPopq a => [ARm a]
  | IShl _ a b | IShr _ a b | ISal _ a b | ISar _ a b | IRol _ a b | IRor _ a b | ITestq a b | ITestb a b => [ARm a; ARi b]
  | IImul a b => [ARmi a; ARmi b]
  | IMovsd a b => [AXm a; AXm b]
  | IAddsd a b | ISubsd a b | IMulsd a b | IDivsd a b | IMinsd a b | IMaxsd a b | IXorps a b | IUComIsd a b | IAndpd a b | IXorpd a b
  | ISqrtpd a b | ISqrtsd a b => [AXmm a; AXm b]
  | IRoundpd a b e => [AXmm a; AXm b; AImm e]
  | ICvtsi2sdq a b => [AXmm a; ARm b]
  | ICvttsd2siq a b => [AReg a; AXm b]
  | IJmp d | ICall d => [ADest d]
  | IJcc _ x => [ALabel x]
  end.
(** Operand texts separated by commas. *)
Fixpoint commas (ws : list (list tok)) : list tok :=
  match ws with
  | [] => []
  | [w] => w
  | w :: r => w ++ TPunct "," :: commas r
  end.
Inductive g_stmt : list tok -> inst -> Prop :=
| g_label x : name x -> g_stmt [TIdent x; TPunct ":"] (ILabel x)
| g_instr s ws i : In s (spelled i) -> Forall2 g_arg ws (args i) -> g_stmt (TIdent s :: commas ws ++ [TPunct ";"]) i.
Inductive g_block : list tok -> list inst -> Prop :=
| g_end : g_block [] []
| g_next w i ws is : g_stmt w i -> g_block ws is -> g_block (w ++ ws) (i :: is).
End Grammar.

(** ** What a mnemonic names *)
(** Condition codes: Intel SDM vol. 2 appendix B, table B-10 (tttn), and the three
    further names eq, lt, gt listed in the README. *)
Definition intel_cc : list (string * Z) :=
  [("o", 0); ("no", 1); ("b", 2); ("nae", 2); ("c", 2); ("nb", 3); ("ae", 3); ("nc", 3); ("e", 4); ("z", 4); ("ne", 5); ("nz", 5);
   ("be", 6); ("na", 6); ("nbe", 7); ("a", 7); ("s", 8); ("ns", 9); ("p", 10); ("pe", 10); ("np", 11); ("po", 11); ("l", 12); ("nge", 12);
   ("nl", 13); ("ge", 13); ("le", 14); ("ng", 14); ("nle", 15); ("g", 15)].
Definition readme_cc : list (string * Z) := [("eq", 4); ("lt", 12); ("gt", 15)].
(** mnemonic, the machine operations it may stand for, operand width, number of operands *)
Record entry := mkEntry { e_name : string; e_ops : list mnem; e_width : width; e_arity : nat }.
Definition suffixed (stem : string) (m : mnem) (ws : list (string * width)) (n : nat) : list entry :=
  map (fun sw => mkEntry (stem ++ fst sw) [m] (snd sw) n) ws.
Definition qlwb : list (string * width) := [("q", W64); ("l", W32); ("w", W16); ("b", W8)].
Definition qlw : list (string * width) := [("q", W64); ("l", W32); ("w", W16)].
Definition ql : list (string * width) := [("q", W64); ("l", W32)].
Definition plain_entry (s : string) (m : mnem) (w : width) (n : nat) : list entry := [mkEntry s [m] w n].
Definition alus : list (string * alu) :=
  [("add", ADD); ("or", OR); ("adc", ADC); ("sbb", SBB); ("and", AND); ("sub", SUB); ("xor", XOR); ("cmp", CMP)].
Definition shifts : list (string * shf) := [("shl", SHL); ("sal", SHL); ("shr", SHR); ("sar", SAR); ("rol", ROL); ("ror", ROR)].
Definition fps : list (string * (fpk * fpt)) :=
  [("addsd", (FADD, SD)); ("subsd", (FSUB, SD)); ("mulsd", (FMUL, SD)); ("divsd", (FDIV, SD)); ("minsd", (FMIN, SD)); ("maxsd", (FMAX, SD));
   ("sqrtsd", (FSQRT, SD)); ("sqrtpd", (FSQRT, PD)); ("xorps", (FXOR, PS)); ("andpd", (FAND, PD)); ("xorpd", (FXOR, PD))].
Definition entries : list entry :=
  flat_map (fun p => suffixed (fst p) (Alu (snd p)) qlwb 2) alus ++
  flat_map (fun p => suffixed (fst p) (Shift (snd p)) ql 2) shifts ++
  [mkEntry "movq" [Mov; MovX] W64 2] ++ suffixed "mov" Mov [("l", W32); ("w", W16); ("b", W8)] 2 ++
  plain_entry "movsxl" (Movsx W32) W64 2 ++ plain_entry "movsxw" (Movsx W16) W64 2 ++ plain_entry "movsxb" (Movsx W8) W64 2 ++
  plain_entry "movzxw" (Movzx W16) W64 2 ++ plain_entry "movzxb" (Movzx W8) W64 2 ++
  suffixed "xchg" Xchg qlwb 2 ++ suffixed "neg" (Unary NEG) [("q", W64)] 1 ++ plain_entry "imul" Imul W64 2 ++
  suffixed "idiv" (Unary IDIV) (("", W64) :: ql) 1 ++ suffixed "div" (Unary DIV) (("", W64) :: ql) 1 ++
  suffixed "test" Test [("q", W64); ("b", W8)] 2 ++ plain_entry "lea" Lea W64 2 ++
  plain_entry "cqo" SignRdx W64 0 ++ plain_entry "cdq" SignRdx W32 0 ++ plain_entry "int3" Int3 W64 0 ++
  suffixed "lzcnt" Lzcnt ql 2 ++ suffixed "tzcnt" Tzcnt ql 2 ++ suffixed "popcnt" Popcnt ql 2 ++
  map (fun p => mkEntry (fst p) [Fp (fst (snd p)) (snd (snd p))] W64 2) fps ++
  plain_entry "movsd" (MovF SD) W64 2 ++ plain_entry "ucomisd" (Ucomi SD) W64 2 ++ plain_entry "roundpd" Roundpd W64 3 ++
  plain_entry "cvtsi2sdq" (Cvtsi2f SD) W64 2 ++ plain_entry "cvttsd2siq" (Cvttf2si SD) W64 2 ++
  suffixed "push" Push [("q", W64)] 1 ++ suffixed "pop" Pop [("q", W64)] 1 ++
  plain_entry "call" Call W64 1 ++ plain_entry "jmp" Jmp W64 1 ++ plain_entry "ret" Ret W64 0 ++ plain_entry "leave" Leave W64 0 ++
  plain_entry "syscall" Syscall W64 0 ++
  flat_map (fun p => plain_entry ("j" ++ fst p) (Jcc (snd p)) W64 1 ++ plain_entry ("set" ++ fst p) (Setcc (snd p)) W8 1 ++
                     suffixed ("cmov" ++ fst p) (Cmovcc (snd p)) qlw 2) (intel_cc ++ readme_cc).
(** Commas and semicolons at the top level of a token list. *)
Definition is_sep (t : tok) : bool := match t with TPunct c => Ascii.eqb c "," || Ascii.eqb c ";" | _ => false end.
Definition one_operand (w : list tok) : Prop := w <> [] /\ Forall (fun t => is_sep t = false) w.

(** The code of a condition suffix. *)
Fixpoint lookup (s : string) (l : list (string * Z)) : option Z :=
  match l with [] => None | (k, v) :: r => if String.eqb s k then Some v else lookup s r end.
Definition cc_code (suffix : string) : option Z := lookup suffix (intel_cc ++ readme_cc).
(** The spellings of the three families for a suffix. *)
Definition family (x : string) : list string := ["j" ++ x; "set" ++ x; "cmov" ++ x ++ "q"; "cmov" ++ x ++ "l"; "cmov" ++ x ++ "w"]%string.
Definition condition (m : mnem) : option Z := match m with Jcc c | Setcc c | Cmovcc c => Some c | _ => None end.

(** The number a displacement stands for. *)
Definition disp_value (val : expr -> Z) (rel : string -> Z) (d : pdisp) : Z :=
  match d with PImm v => v | PExpr n e => if n then - val e else val e | PLabel x => rel x end.

(** ** A printer *)
Section Show.
Variable expression : list tok -> Prop.
Definition show_int (v : Z) : list tok := if v <? 0 then [TPunct "-"; TInt (- v)] else [TInt v].
Definition reg_text (n : Z) : string := match find (fun p => fst p =? n) registers with Some p => snd p | None => "" end.
Definition show_reg (r : register) : list tok :=
  match r with
  | RReg n => [TIdent (reg_text n)]
  | RExpr (EToks e) => [TIdent "R"; TGroup Paren e]
  | RExpr (ELit _) => []
  end.
Definition num_text (n : Z) : string :=
  nth (Z.to_nat n) ["0"; "1"; "2"; "3"; "4"; "5"; "6"; "7"; "8"; "9"; "10"; "11"; "12"; "13"; "14"; "15"] "".
Definition show_xmm (e : expr) : list tok :=
  match e with ELit n => [TIdent ("xmm" ++ num_text n)] | EToks g => [TIdent "xmm"; TGroup Paren g] end.
Definition show_imm (e : expr) : list tok := match e with ELit v => [TInt v] | EToks g => [TGroup Paren g] end.
Definition show_disp (d : pdisp) : list tok :=
  match d with
  | PImm v => if (v <? 0) && negb (v =? - 2 ^ 31) then [TPunct "-"; TInt (- v)] else TPunct "+" :: show_int v
  | PExpr n (EToks e) => [TPunct (if n then "-" else "+"); TGroup Paren e]
  | PExpr n (ELit _) => []
  | PLabel x => [TPunct "+"; TIdent x]
  end.
Definition show_mem (a : ind_addr) : list tok :=
  [TGroup Bracket
    (show_reg (ia_base a) ++
     match ia_scale a with PScaleNone => [] | PS1 k r => TPunct "+" :: show_reg r ++ [TPunct "*"; TInt (2 ^ k)] end ++
     show_disp (ia_disp a))].
Definition show_arg (a : arg) : list tok :=
  match a with
  | AReg r | ARm (RmReg r) | ARmi (RmiReg r) | ARi (RiReg r) | AMov (MovReg r) => show_reg r
  | ARm (RmInd m) | ARmi (RmiInd m) | AXm (XmInd m) | AMov (MovInd m) | ADest (DestInd m) => show_mem m
  | AXmm e | AXm (XmXmm e) | AMov (MovXmm e) => show_xmm e
  | ARmi (RmiImm e) | ARi (RiImm e) | AImm e | AMov (MovImm e None) => show_imm e
  | AMov (MovImm e (Some _)) => TIdent "qword" :: show_imm e
  | ADest (DestReg n) => [TIdent (reg_text n)]
  | ADest (DestRel x) | ALabel x => [TIdent x]
  | ADest (DestDisp (EToks g)) => [TGroup Paren g]
  | ADest (DestDisp (ELit v)) => []
  | AInt v => show_int v
  | AFloat b => if b <? 2 ^ 63 then [TFloat b] else [TPunct "-"; TFloat (b - 2 ^ 63)]
  end.
Definition show (i : inst) : list tok :=
  match i with
  | ILabel x => [TIdent x; TPunct ":"]
  | _ => TIdent (hd "" (spelled i)) :: commas (map show_arg (args i)) ++ [TPunct ";"]
  end.
Definition show_block (is : list inst) : list tok := flat_map show is.

(** Values that can be written: registers that exist, expressions that are
    expressions, displacements of 32 bits, labels that are not register names. *)
Definition reg_ok (r : register) : Prop :=
  match r with RReg n => 0 <= n <= 16 | RExpr (EToks e) => expression e | RExpr (ELit _) => False end.
Definition xmm_ok (e : expr) : Prop := match e with ELit n => 0 <= n <= 15 | EToks _ => True end.
Definition mem_ok (a : ind_addr) : Prop :=
  reg_ok (ia_base a) /\ match ia_scale a with PScaleNone => True | PS1 k r => 0 <= k <= 3 /\ reg_ok r end /\
  match ia_disp a with
  | PImm v => in_i32 v = true
  | PExpr _ (EToks e) => expression e
  | PExpr _ (ELit _) => False
  | PLabel x => label_name x /\ x <> "R"
  end.
Definition arg_ok (a : arg) : Prop :=
  match a with
  | AReg r | ARm (RmReg r) | ARmi (RmiReg r) | ARi (RiReg r) | AMov (MovReg r) => reg_ok r
  | ARm (RmInd m) | ARmi (RmiInd m) | AXm (XmInd m) | AMov (MovInd m) | ADest (DestInd m) => mem_ok m
  | AXmm e | AXm (XmXmm e) | AMov (MovXmm e) => xmm_ok e
  | ARmi (RmiImm e) | ARi (RiImm e) | AImm e | AMov (MovImm e (None | Some QWORD)) => True
  | AMov (MovImm e (Some _)) => False
  | ADest (DestReg n) => 0 <= n <= 16
  | ADest (DestRel x) => label_name x
  | ALabel x => name x
  | ADest (DestDisp (EToks g)) => True
  | ADest (DestDisp (ELit v)) => False
  | AInt v => - 2 ^ 63 <= v < 2 ^ 63
  | AFloat b => True
  end.
Definition writable (i : inst) : Prop :=
  match i with ILabel x => name x | _ => spelled i <> [] /\ Forall arg_ok (args i) end.
End Show.
