(** Blocks whose expressions use the assembler and may leave the block: what they should do. *)
From Verif Require Import Base ModelMem ModelSyntax ModelMacro ModelEff ModelLeave SpecX86 SpecAsm SpecState SpecHist SpecProg SpecEff SpecLeave.
Local Open Scope Z_scope.

Section Flow.
Variable W : Type.
Variable ev : list tok -> env -> W * jit -> option Z * (W * jit).
Variable lenv : string -> label.
(** Evaluation goes on ([inl]) until an expression leaves ([inr]: what it left); from then on
    nothing is evaluated. *)
Definition until_left (ts : list tok) (r : env) (y : (W * jit) + (W * jit)) : Z * ((W * jit) + (W * jit)) :=
  match y with
  | inl x => match ev ts r x with (Some v, x1) => (v, inl x1) | (None, x1) => (0, inr x1) end
  | inr x => (0, inr x)
  end.
(** What is checked before the other operands are evaluated: that an immediate is in the range of the
    operand, that a register holding a shift count is cl. *)
Definition count_check (b : ri_operand) : option (expr * (Z -> bool)) :=
  match b with
  | RiReg (RReg n) => Some (ELit n, fun v => v mod 256 =? 1)
  | RiReg (RExpr e) => Some (e, fun v => v mod 256 =? 1)
  | RiImm e => Some (e, fun v => imm_ok W8 (i64 v))
  end.
Definition checked (i : inst) : option (expr * (Z -> bool)) :=
  match i with
  | IShl _ _ b | IShr _ _ b | ISal _ _ b | ISar _ _ b | IRol _ _ b | IRor _ _ b => count_check b
  | _ => match immediate i with Some (e, ok) => Some (e, fun v => ok (i64 v)) | None => None end
  end.
Inductive ending := Through (x : W * jit) | Stopped (e : panic) | Gone (x : W * jit).
(** If the check fails, the block panics.  The text of the panic shows the distance of a call, the
    register of movl and movb, the immediate of a byte operation: an expression there is evaluated for it,
    the distance and the immediate a second time, and may leave ([r1]: with the immediate as imm). *)
Definition shown (i : inst) (r r1 : env) : option (env * expr) :=
  match i with
  | ICall (DestDisp e) => Some (r, e)
  | IMovl (RmReg (RExpr e)) (RmiImm _) | IMovb (RmReg (RExpr e)) (RmiImm _) => Some (r1, e)
  | IAdd BYTE _ (RmiImm e) | IOr BYTE _ (RmiImm e) | IAdc BYTE _ (RmiImm e) | ISbb BYTE _ (RmiImm e)
  | IAnd BYTE _ (RmiImm e) | ISub BYTE _ (RmiImm e) | IXor BYTE _ (RmiImm e) | ICmp BYTE _ (RmiImm e) => Some (r1, e)
  | _ => None
  end.
Definition panics (m : option (env * expr)) (x : W * jit) : ending :=
  match m with
  | Some (r, e) => match value _ until_left r e (inl x) with (_, inl _) => Stopped ImmRange | (_, inr x1) => Gone x1 end
  | None => Stopped ImmRange
  end.
Definition refusal (r : env) (i : inst) (x : W * jit) : option ending :=
  match checked i with
  | Some (e, ok) => match value _ until_left r e (inl x) with
      | (v, inl x1) => if ok v then None else Some (panics (shown i r (env_set "imm" (i64 v) r)) x1)
      | _ => None
      end
  | None => None
  end.
(** Statement by statement: the expressions, each once, in the order of C53.  If one leaves, that is
    all, and so if the check fails (but for what the panic shows); if not, the statement with their values is assembled, and the next follows ([ev'], [q] are of
    no account: it has no expressions). *)
Section Values.
Variable ev' : list tok -> env -> Z.
Variable q : env.
Fixpoint values_flow (r : env) (body : list inst) (x : W * jit) : ending :=
  match body with
  | [] => Through x
  | i :: b =>
      match refusal r i x with Some z => z | None =>
      let '((i', r1), y) := v_inst ((W * jit) + (W * jit)) until_left r i (inl x) in
      match y with
      | inr x1 => Gone x1
      | inl (w1, s1) => match step (OAsm ev' lenv q [i']) s1 with Ok _ s2 => values_flow r1 b (w1, s2) | Panic e _ => Stopped e end
      end end
  end.
End Values.
(** What a run of the block ended with. *)
Definition ended (x : lres W) : ending :=
  match x with LOk _ _ w s => Through (w, s) | LFail _ e _ _ => Stopped e | LLeft _ w s => Gone (w, s) end.
End Flow.
Arguments Through {W}. Arguments Stopped {W}. Arguments Gone {W}. Arguments ended {W}.
