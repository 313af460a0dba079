(** The generated code with expressions that use the assembler and may leave the block, such as
    movq rax, (match find(jit.get_current_address()) { Some(x) => x, None => return }).
    ModelUse and ModelLeave together: an expression is given the assembler as it is where the
    expression is evaluated and may change it, and may give no value, which leaves the block at once. *)
From Verif Require Import Base ModelMem ModelEnc ModelSyntax ModelMacro ModelEff ModelLeave.

Section Exec.
Variable W : Type.
(** The value of an expression, or none when it leaves the block, and its effect on the caller's
    state and the assembler. *)
Variable ev : list tok -> env -> W * jit -> option Z * (W * jit).
Variable lenv : string -> label.
Definition f_eval (r : env) (e : expr) (x : W * jit) : option Z * (W * jit) :=
  match e with ELit v => (Some v, x) | EToks ts => ev ts r x end.
Fixpoint f_exec (r : env) (g : ecode) (x : W * jit) : lres W :=
  match g with
  | ENil => LOk W r (fst x) (snd x)
  | EPanic => LFail W ImmRange (fst x) (snd x)
  | EDo c k => match run_call none lenv r c (snd x) with Ok _ s1 => f_exec r k (fst x, s1) | Panic e s1 => LFail W e (fst x) s1 end
  | EEval e k => match f_eval r e x with (Some v, x1) => f_exec r (k v) x1 | (None, x1) => LLeft W (fst x1) (snd x1) end
  | EImm v k => f_exec (env_set "imm" (i64 v) r) k x
  | EIf c t e k =>
      let (b, r') := run_cond none r c in
      match (if b then f_exec r' t x else f_exec r e x) with LOk _ _ w1 s1 => f_exec r k (w1, s1) | f => f end
  end.
Fixpoint f_exec_all (r : env) (gs : list ecode) (x : W * jit) : lres W :=
  match gs with
  | [] => LOk W r (fst x) (snd x)
  | g :: rest => match f_exec r g x with LOk _ r1 w1 s1 => f_exec_all r1 rest (w1, s1) | f => f end
  end.
(** monoasm!(jit, body): monoasm_macro/src/lib.rs 22-29. *)
Definition f_block (r : env) (body : list inst) (w : W) (s : jit) : lres W :=
  match e_compile_all body with Some gs => f_exec_all r gs (w, s) | None => LFail W Unimplemented w s end.
End Exec.
