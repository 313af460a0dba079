(** Model of the Display implementations of the operands (monoasm_macro/src/parse.rs, inst.rs), which put operands into the
    messages of the macro's panics (asm.rs 55, 58, 207, 362, 426, 469, 516, 562, 637, 696, 762, 819) and of the generated code
    ([op1_str]: asm.rs 63, 96, 399, 451, 493, 540, 605, 664, 723, 876, 893, 904, 921).

    Simplified: a text is the list of its tokens (the text of a TokenStream is read as the tokens it has).  Suffixes are not
    tokens of the model, so the [3u8] of [xmm3] is [3]. *)
From Verif Require Import Base ModelSyntax.
Local Open Scope string_scope.
Local Open Scope list_scope.
Local Open Scope Z_scope.

(** A number, as [write!(f, "{}", n)] prints it. *)
Definition d_int (v : Z) : list tok := if v <? 0 then [TPunct "-"; TInt (- v)] else [TInt v].
(** [write!(f, "{}", ts)] of a TokenStream that came from the input or holds a literal of it (inst.rs 597, 655, 708, 836). *)
Definition d_toks (e : expr) : list tok := match e with ELit v => d_int v | EToks ts => ts end.
(** The TokenStream of an xmm register: [quote!(#no as u64)] for a name (parse.rs 207, inst.rs 746). *)
Definition d_xmm_toks (e : expr) : list tok := match e with ELit n => d_int n ++ [TIdent "as"; TIdent "u64"] | EToks ts => ts end.
(** parse.rs 142-149 [Display for Register]. *)
Definition display_reg (r : register) : list tok :=
  match r with RReg n => [TIdent "R"; TGroup Paren (d_int n)] | RExpr e => [TIdent "R"; TGroup Paren (d_toks e)] end.
(** parse.rs 229-233 [Display for Xmm]; the Xmm arms of inst.rs 773, 839. *)
Definition display_xmm (e : expr) : list tok := [TIdent "xmm"; TGroup Paren (d_xmm_toks e)].
(** [#expr as i32] (parse.rs 487). *)
Definition as_i32 (e : expr) : list tok := d_toks e ++ [TIdent "as"; TIdent "i32"].
(** parse.rs 470-478 [Display for Disp]; the TokenStream of a negated expression is [-(#expr as i32)] (447). *)
Definition display_disp (d : pdisp) : list tok :=
  match d with
  | PImm v => d_int v
  | PExpr n e => if n then [TPunct "-"; TGroup Paren (as_i32 e)] else as_i32 e
  | PLabel x => [TIdent x]
  end.
(** parse.rs 340-344 [Display for IndAddr]. *)
Definition display_ind (a : ind_addr) : list tok :=
  [TGroup Bracket (display_reg (ia_base a) ++ [TPunct "+"; TGroup Paren (display_disp (ia_disp a))])].
(** inst.rs 533-540, 594-602, 652-659, 705-711, 770-777, 831-843. *)
Definition display_rm (o : rm_operand) : list tok := match o with RmReg r => display_reg r | RmInd a => display_ind a end.
Definition display_rmi (o : rmi_operand) : list tok := match o with RmiImm e => d_toks e | RmiReg r => display_reg r | RmiInd a => display_ind a end.
Definition display_ri (o : ri_operand) : list tok := match o with RiImm e => d_toks e | RiReg r => display_reg r end.
Definition display_imm (e : expr) : list tok := d_toks e.
Definition display_xm (o : xm_operand) : list tok := match o with XmXmm e => display_xmm e | XmInd a => display_ind a end.
(** derive(Debug) of OperandSize (inst.rs 140). *)
Definition debug_size (s : opsize) : string := match s with QWORD => "QWORD" | DWORD => "DWORD" | WORD => "WORD" | BYTE => "BYTE" end.
Definition display_mov (o : mov_operand) : list tok :=
  match o with
  | MovImm e (Some s) => d_toks e ++ [TPunct ":"; TIdent (debug_size s)]
  | MovImm e None => d_toks e
  | MovReg r => display_reg r
  | MovXmm e => display_xmm e
  | MovInd a => display_ind a
  end.
