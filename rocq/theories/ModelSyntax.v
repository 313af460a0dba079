(** Abstract syntax of monoasm! input: token trees (proc_macro2), operands and
    instructions (monoasm_macro/src/parse.rs, inst.rs). *)
From Coq Require Export String Ascii.
From Verif Require Import Base.
Open Scope Z_scope.

(** Token trees as seen by the macro (proc_macro2::TokenTree).  Literals carry
    their value: integers the non-negative number written, floats the 64-bit
    pattern of the f64; spans, spacing and suffixes are not modelled. *)
Inductive delim := Paren | Bracket | Brace.
Inductive tok :=
| TIdent (s : string)
| TInt (v : Z)
| TFloat (bits : Z)
| TPunct (c : ascii)
| TGroup (d : delim) (ts : list tok)
| TOther.

(** An embedded Rust expression: a literal produced by the macro itself or a
    token stream copied from the input.  Where the code stores a TokenStream made
    from one literal ([LitInt::to_token_stream], [quote!(#no as u64)]) the model
    stores [ELit]. *)
Inductive expr := ELit (v : Z) | EToks (ts : list tok).

(** parse.rs 120-124 [enum Register]. *)
Inductive register := RReg (n : Z) | RExpr (e : expr).

(** parse.rs 436-441 [enum Disp].  [Disp::Expr(ts)] always holds [#expr as i32]
    or, after [neg], [-(#expr as i32)]: the model keeps the expression and the sign. *)
Inductive pdisp := PImm (d : Z) | PExpr (negated : bool) (e : expr) | PLabel (ident : string).

(** parse.rs 353-357 [enum Scale] and 248-253 [struct IndAddr]. *)
Inductive pscale := PScaleNone | PS1 (k : Z) (r : register).
Record ind_addr := mkInd { ia_base : register; ia_scale : pscale; ia_disp : pdisp }.

(** inst.rs 140-146 [enum OperandSize]. *)
Inductive opsize := QWORD | DWORD | WORD | BYTE.

(** inst.rs 512-516, 563-568, 626-630, 686-687, 724-728, 794-800; parse.rs 188-189. *)
Inductive rm_operand := RmReg (r : register) | RmInd (a : ind_addr).
Inductive rmi_operand := RmiImm (e : expr) | RmiReg (r : register) | RmiInd (a : ind_addr).
Inductive ri_operand := RiImm (e : expr) | RiReg (r : register).
Inductive xm_operand := XmXmm (e : expr) | XmInd (a : ind_addr).
Inductive mov_operand :=
| MovImm (e : expr) (size : option opsize)
| MovReg (r : register)
| MovXmm (e : expr)
| MovInd (a : ind_addr).
Definition xmm := expr.

(** parse.rs 373-379 [enum Dest]; the register is the macro-level enum [Reg] as its number. *)
Inductive dest := DestReg (n : Z) | DestRel (ident : string) | DestDisp (e : expr) | DestInd (a : ind_addr).

(** inst.rs 153-171 [enum Cond]. *)
Inductive cond := CO | CNo | CB | CAe | CEq | CNe | CBe | CA | CS | CNs | CP | CNp | CLt | CGe | CLe | CGt.
Definition cond_code (c : cond) : Z :=
  match c with
  | CO => 0 | CNo => 1 | CB => 2 | CAe => 3 | CEq => 4 | CNe => 5 | CBe => 6 | CA => 7
  | CS => 8 | CNs => 9 | CP => 10 | CNp => 11 | CLt => 12 | CGe => 13 | CLe => 14 | CGt => 15
  end.

(** inst.rs 49-133 [enum Inst].  [F64] carries the bit pattern of the literal. *)
Inductive inst :=
| ILabel (ident : string)
| IF64 (bits : Z)
| II64 (v : Z)
| IMovq (a b : mov_operand)
| IMovl (a : rm_operand) (b : rmi_operand)
| IMovw (a : rm_operand) (b : rmi_operand)
| IMovb (a : rm_operand) (b : rmi_operand)
| IMovsxl (a : register) (b : rm_operand)
| IMovzxw (a : register) (b : rm_operand)
| IMovsxw (a : register) (b : rm_operand)
| IMovzxb (a : register) (b : rm_operand)
| IMovsxb (a : register) (b : rm_operand)
| IAdd (sz : opsize) (a : rm_operand) (b : rmi_operand)
| ISub (sz : opsize) (a : rm_operand) (b : rmi_operand)
| IAdc (sz : opsize) (a : rm_operand) (b : rmi_operand)
| ISbb (sz : opsize) (a : rm_operand) (b : rmi_operand)
| IAnd (sz : opsize) (a : rm_operand) (b : rmi_operand)
| IOr (sz : opsize) (a : rm_operand) (b : rmi_operand)
| IXor (sz : opsize) (a : rm_operand) (b : rmi_operand)
| ICmp (sz : opsize) (a : rm_operand) (b : rmi_operand)
| IXchg (sz : opsize) (a b : rm_operand)
| INegq (a : rm_operand)
| IShl (sz : opsize) (a : rm_operand) (b : ri_operand)
| IShr (sz : opsize) (a : rm_operand) (b : ri_operand)
| ISal (sz : opsize) (a : rm_operand) (b : ri_operand)
| ISar (sz : opsize) (a : rm_operand) (b : ri_operand)
| IRol (sz : opsize) (a : rm_operand) (b : ri_operand)
| IRor (sz : opsize) (a : rm_operand) (b : ri_operand)
| IImul (a b : rmi_operand)
| IIdiv (a : rm_operand)
| IIdivl (a : rm_operand)
| IDiv (a : rm_operand)
| IDivl (a : rm_operand)
| ILea (a b : rm_operand)
| ITestq (a : rm_operand) (b : ri_operand)
| ITestb (a : rm_operand) (b : ri_operand)
| ISetcc (c : cond) (a : rm_operand)
| ICmovcc (sz : opsize) (c : cond) (a : register) (b : rm_operand)
| ICqo
| ICdq
| IMovsd (a b : xm_operand)
| IAddsd (a : xmm) (b : xm_operand)
| ISubsd (a : xmm) (b : xm_operand)
| IMulsd (a : xmm) (b : xm_operand)
| IDivsd (a : xmm) (b : xm_operand)
| IXorps (a : xmm) (b : xm_operand)
| IUComIsd (a : xmm) (b : xm_operand)
| IMinsd (a : xmm) (b : xm_operand)
| IMaxsd (a : xmm) (b : xm_operand)
| IAndpd (a : xmm) (b : xm_operand)
| IXorpd (a : xmm) (b : xm_operand)
| IRoundpd (a : xmm) (b : xm_operand) (i : expr)
| ICvtsi2sdq (a : xmm) (b : rm_operand)
| ICvttsd2siq (a : register) (b : xm_operand)
| ISqrtpd (a : xmm) (b : xm_operand)
| ISqrtsd (a : xmm) (b : xm_operand)
| IPushq (a : rm_operand)
| IPopq (a : rm_operand)
| IJmp (d : dest)
| IJcc (c : cond) (ident : string)
| ICall (d : dest)
| ILeave
| IRet
| ISyscall
| ILzcnt (sz : opsize) (a : register) (b : rm_operand)
| ITzcnt (sz : opsize) (a : register) (b : rm_operand)
| IPopcnt (sz : opsize) (a : register) (b : rm_operand)
| IInt3.
