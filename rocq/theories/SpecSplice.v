(** Specification: the meaning a reader gives an expression in parentheses: it is evaluated by itself, and its value is converted
    to the type wanted at its place. *)
From Verif Require Import Base ModelSyntax SpecRust ModelSplice.

Definition whole (p : place) (e : rexpr) : rexpr :=
  match p with
  | AtImm | AtCall => XCast (XParen e) I64
  | AtDisp false => XCast (XParen e) I32
  | AtDisp true => XUn UNeg (XParen (XCast (XParen e) I32))
  | AtReg => e
  end.
(** No operator of two operands outside of parentheses. *)
Definition tight (e : rexpr) : Prop := forall o a b, e <> XBin o a b.
(** The operands left of the last one, with the operator behind each, and the last one. *)
Fixpoint lefts (e : rexpr) : list (rexpr * binop) := match e with XBin o a b => ((a, o) :: lefts b)%list | _ => nil end.
Fixpoint last_operand (e : rexpr) : rexpr := match e with XBin _ _ b => last_operand b | _ => e end.
(** The type of a cast put on the last operand only. *)
Fixpoint cast_last (t : ity) (e : rexpr) : rexpr := match e with XBin o a b => XBin o a (cast_last t b) | _ => XCast e t end.
(** Variables hold values of their types. *)
Definition typed (G : string -> option ity) (r : string -> Z) : Prop := forall x t, G x = Some t -> in_ty t (r x) = true.
(** Operators whose operands and value have one type, and those of them that agree with arithmetic modulo a power of two. *)
Definition one_type (o : binop) : Prop := class o = Arith \/ class o = Bits.
Definition ring (o : binop) : Prop := In o [BAdd; BSub; BMul; BAnd; BOr; BXor]%list.
(** The conditions under which the conversion of the last operand only makes no difference. *)
Definition harmless (p : place) (G : string -> option ity) (e : rexpr) : Prop :=
  match p with
  | AtImm | AtReg => True
  | AtDisp _ => tight e \/ (kind_of G e = KTy I32 \/ kind_of G e = KOpen) /\ Forall (fun x => one_type (snd x)) (lefts e)
  | AtCall => tight e \/ kind_of G e = KTy I64 /\ Forall (fun x => one_type (snd x)) (lefts e) /\
                         (kind_of G (last_operand e) = KTy I64 \/ is_lit (last_operand e) = true)
  end.
