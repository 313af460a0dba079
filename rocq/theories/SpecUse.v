(** Blocks whose expressions use the assembler: what they should do. *)
From Verif Require Import Base ModelMem ModelSyntax ModelMacro ModelEff SpecX86 SpecAsm SpecState SpecHist SpecProg SpecEff.
Local Open Scope Z_scope.

Section Use.
Variable W : Type.
Variable ev : list tok -> env -> W * jit -> Z * (W * jit).
Variable lenv : string -> label.
(** Statement by statement: first the expressions, each once, in the order of C53; then the
    statement with their values is assembled ([ev'], [q] are of no account: it has no expressions). *)
Section Values.
Variable ev' : list tok -> env -> Z.
Variable q : env.
Fixpoint values_first (r : env) (body : list inst) (x : W * jit) : res (W * jit) :=
  match body with
  | [] => Ok x (snd x)
  | i :: b =>
      let '((i', r1), (w1, s1)) := v_inst (W * jit) ev r i x in
      match step (OAsm ev' lenv q [i']) s1 with
      | Ok _ s2 => values_first r1 b (w1, s2)
      | Panic e s2 => Panic e s2
      end
  end.
End Values.
End Use.
(** Expressions that only read the assembler: their value and effect on the caller's state, given
    the assembler. *)
Definition reading {W} (ev : jit -> list tok -> env -> W -> Z * W) (ts : list tok) (r : env) (x : W * jit) : Z * (W * jit) :=
  let (v, w) := ev (snd x) ts r (fst x) in (v, (w, snd x)).
(** Statement by statement, the expressions of each given the assembler as the statements before
    left it ([e_block] is the run of C53, whose expressions do not see the assembler). *)
Fixpoint seen_before {W} (ev : jit -> list tok -> env -> W -> Z * W) (lenv : string -> label) (r : env) (body : list inst) (w : W) (s : jit) : eres W :=
  match body with
  | [] => EOk W r w s
  | i :: b => match e_block W (ev s) lenv r [i] w s with EOk _ r1 w1 s1 => seen_before ev lenv r1 b w1 s1 | f => f end
  end.
