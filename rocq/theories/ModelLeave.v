(** The generated code with expressions that may leave the block: by [?], [return], [break] or a
    panic of their own.  As ModelEff, but evaluating an expression may give no value; the block is
    then left at once, and the assembler stays as it is at that point. *)
From Verif Require Import Base ModelMem ModelEnc ModelSyntax ModelMacro ModelEff.

Section Exec.
Variable W : Type.
(** The value of an expression, or none when it leaves the block, and its effect on the caller's state. *)
Variable ev : list tok -> env -> W -> option Z * W.
Variable lenv : string -> label.
Inductive lres := LOk (r : env) (w : W) (s : jit) | LFail (e : panic) (w : W) (s : jit) | LLeft (w : W) (s : jit).
Definition l_eval (r : env) (e : expr) (w : W) : option Z * W :=
  match e with ELit v => (Some v, w) | EToks ts => ev ts r w end.
Fixpoint l_exec (r : env) (g : ecode) (w : W) (s : jit) : lres :=
  match g with
  | ENil => LOk r w s
  | EPanic => LFail ImmRange w s
  | EDo c k => match run_call none lenv r c s with Ok _ s1 => l_exec r k w s1 | Panic e s1 => LFail e w s1 end
  | EEval e k => match l_eval r e w with (Some v, w1) => l_exec r (k v) w1 s | (None, w1) => LLeft w1 s end
  | EImm v k => l_exec (env_set "imm" (i64 v) r) k w s
  | EIf c t e k =>
      let (b, r') := run_cond none r c in
      match (if b then l_exec r' t w s else l_exec r e w s) with LOk _ w1 s1 => l_exec r k w1 s1 | f => f end
  end.
Fixpoint l_exec_all (r : env) (gs : list ecode) (w : W) (s : jit) : lres :=
  match gs with
  | [] => LOk r w s
  | g :: rest => match l_exec r g w s with LOk r1 w1 s1 => l_exec_all r1 rest w1 s1 | f => f end
  end.
(** monoasm!(jit, body): monoasm_macro/src/lib.rs 22-29. *)
Definition l_block (r : env) (body : list inst) (w : W) (s : jit) : lres :=
  match e_compile_all body with Some gs => l_exec_all r gs w s | None => LFail Unimplemented w s end.
End Exec.
