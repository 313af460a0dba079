(** The generated code with expressions that use the assembler.  The expansion binds the assembler
    to a variable jit (monoasm_macro/src/lib.rs 26: [let mut jit = #base;]), which the expressions of
    the block see: movq rax, (jit.get_current_address()).  As ModelEff, but an expression is given the
    assembler as it is where the expression is evaluated, and may change it.  (Rust lets it change the
    assembler in [let imm = ..], [if let Ok(imm) = ..], [let rm_op = ..] and conditions; as an argument
    of a call [jit.enc_..(..)] it may only read it.) *)
From Verif Require Import Base ModelMem ModelEnc ModelSyntax ModelMacro ModelEff.

Section Exec.
Variable W : Type.
(** The value of an expression and its effect on the caller's state and the assembler. *)
Variable ev : list tok -> env -> W * jit -> Z * (W * jit).
Variable lenv : string -> label.
Definition u_eval (r : env) (e : expr) (x : W * jit) : Z * (W * jit) :=
  match e with ELit v => (v, x) | EToks ts => ev ts r x end.
Fixpoint u_exec (r : env) (g : ecode) (x : W * jit) : eres W :=
  match g with
  | ENil => EOk W r (fst x) (snd x)
  | EPanic => EFail W ImmRange (fst x) (snd x)
  | EDo c k => match run_call none lenv r c (snd x) with Ok _ s1 => u_exec r k (fst x, s1) | Panic e s1 => EFail W e (fst x) s1 end
  | EEval e k => let (v, x1) := u_eval r e x in u_exec r (k v) x1
  | EImm v k => u_exec (env_set "imm" (i64 v) r) k x
  | EIf c t e k =>
      let (b, r') := run_cond none r c in
      match (if b then u_exec r' t x else u_exec r e x) with EOk _ _ w1 s1 => u_exec r k (w1, s1) | f => f end
  end.
Fixpoint u_exec_all (r : env) (gs : list ecode) (x : W * jit) : eres W :=
  match gs with
  | [] => EOk W r (fst x) (snd x)
  | g :: rest => match u_exec r g x with EOk _ r1 w1 s1 => u_exec_all r1 rest (w1, s1) | f => f end
  end.
(** monoasm!(jit, body): monoasm_macro/src/lib.rs 22-29. *)
Definition u_block (r : env) (body : list inst) (w : W) (s : jit) : eres W :=
  match e_compile_all body with Some gs => u_exec_all r gs (w, s) | None => EFail W Unimplemented w s end.
End Exec.
