(** The code the macro makes of an expression in parentheses, as tokens: where the expression's own tokens end up in the
    expansion.  ([ModelMacro] takes the value of the whole expression at each of these places; what the expansion really
    evaluates is here.) *)
From Verif Require Import Base ModelSyntax SpecRust.
Local Open Scope list_scope.
Local Open Scope string_scope.

(** The places of an expression in the quoted code (asm.rs and parse.rs, lines at [code]): an immediate, a displacement after "+" or "-", the distance of a call, the number of a register. *)
Inductive place := AtImm | AtDisp (negated : bool) | AtCall | AtReg.
Definition as_ty (t : string) : list tok := [TIdent "as"; TIdent t].
Definition code (p : place) (ts : list tok) : list tok :=
  match p with
  (* asm.rs 67, 82, 100, 115, 374, 382, 401, 437, ...: "let imm = (#i) as i64" *)
  | AtImm => TGroup Paren ts :: as_ty "i64"
  (* parse.rs 482-488: "quote!(#expr as i32)", then 459-461 "Disp::from_disp(#ts)" *)
  | AtDisp false => ts ++ as_ty "i32"
  (* parse.rs 447: "quote!(-(#ts))" of the same *)
  | AtDisp true => [TPunct "-"; TGroup Paren (ts ++ as_ty "i32")]
  (* asm.rs 289: "i32::try_from(#imm as i64)" *)
  | AtCall => ts ++ as_ty "i64"
  (* parse.rs 157-158 and 136 "Reg::from(#ts)"; 195, 238 (xmm) *)
  | AtReg => ts
  end.

(** What the surrounding code takes: from_disp an i32 (monoasm/src/lib.rs), the annotation-free "let imm" an i64 by its cast,
    Reg::from a u64; i32::try_from takes every integer type and bool. *)
Definition takes (p : place) (G : string -> option ity) (r : string -> Z) (checks : bool) (x : rexpr) : option (option Z) :=
  match p with
  | AtImm => means G r checks I64 x
  | AtDisp _ => means G r checks I32 x
  | AtReg => means G r checks U64 x
  | AtCall =>
      match kind_of G x with
      | KTy t => means G r checks t x
      | KOpen => means G r checks I32 x
      | KBool => if fits G I32 x then Some (value G r checks I32 x) else None
      | KErr => None
      end
  end.
