(** The generated code with expressions that have side effects.  ModelMacro evaluates pure
    expressions; here an expression acts on a state [W] of the caller, and each place where the
    generated code contains an operand expression evaluates it, in the order in which Rust
    evaluates the statements and the arguments of calls (from left to right).
    Not modelled here: expressions that leave the block (see ModelLeave) or use [jit] (see ModelUse). *)
From Verif Require Import Base ModelMem ModelEnc ModelSyntax ModelMacro.

(** ** Generated code with its evaluations: the calls and conditions contain literals only.
    What [compile] quotes (asm.rs 5-974) with every spliced [#expr] in the place where Rust evaluates it. *)
Inductive ecode :=
| ENil
| EPanic                                   (* panic!(..) *)
| EDo (c : gcall) (k : ecode)
| EEval (e : expr) (k : Z -> ecode)        (* evaluates e, goes on with its value *)
| EImm (v : Z) (k : ecode)                 (* let imm = v as i64 *)
| EIf (c : gcond) (t e k : ecode).

(** Arguments: [Reg::from(e)], [Rm::reg(..)], [Rm::ind(base, disp, scale)] (parse.rs 132-140,
    346-351, 359-366, 453-468; inst.rs 542-550). *)
Definition e_reg (g : register) (k : register -> ecode) : ecode :=
  match g with RReg n => k (RReg n) | RExpr e => EEval e (fun v => k (RExpr (ELit v))) end.
Definition e_disp (d : pdisp) (k : pdisp -> ecode) : ecode :=
  match d with PExpr n e => EEval e (fun v => k (PExpr n (ELit v))) | d => k d end.
Definition e_scale (sc : pscale) (k : pscale -> ecode) : ecode :=
  match sc with PScaleNone => k PScaleNone | PS1 n g => e_reg g (fun g' => k (PS1 n g')) end.
Definition e_rm (x : grm) (k : grm -> ecode) : ecode :=
  match x with
  | GRmReg g => EEval g (fun v => k (GRmReg (ELit v)))
  | GRmInd a => e_reg (ia_base a) (fun b => e_disp (ia_disp a) (fun d => e_scale (ia_scale a) (fun sc => k (GRmInd (mkInd b sc d)))))
  end.
(** A call (the calls on jit quoted in asm.rs 5-974): its arguments from left to right.  The immediate arguments are the variable imm. *)
Definition e_call (c : gcall) (k : ecode) : ecode :=
  let one (g : greg) (f : greg -> gcall) := EEval g (fun v => EDo (f (ELit v)) k) in
  let mem (x : grm) (f : grm -> gcall) := e_rm x (fun x' => EDo (f x') k) in
  let two (g : greg) (x : grm) (f : greg -> grm -> gcall) := EEval g (fun v => e_rm x (fun x' => EDo (f (ELit v) x') k)) in
  match c with
  | GEmitbExpr e => one e GEmitbExpr
  | GEncO op g => one g (GEncO op) | GEncOi op g => one g (GEncOi op) | GEncOiByte op g => one g (GEncOiByte op) | GEncRexwO op g => one g (GEncRexwO op)
  | GEncMi op x i => mem x (fun x => GEncMi op x i) | GEncRexwMi op x i => mem x (fun x => GEncRexwMi op x i) | GEncMiByte op x i => mem x (fun x => GEncMiByte op x i)
  | GEncMr op g x => two g x (GEncMr op) | GEncMrByte op g x => two g x (GEncMrByte op) | GEncRexwMr op g x => two g x (GEncRexwMr op)
  | GEncMByte op x => mem x (GEncMByte op)
  | GEncDigit op x d => mem x (fun x => GEncDigit op x d)
  | GEncDigitImm op x d i => mem x (fun x => GEncDigitImm op x d i)
  | GEncDigitImmByte op al x d i => mem x (fun x => GEncDigitImmByte op al x d i)
  | GEncRexwDigit op x d i => mem x (fun x => GEncRexwDigit op x d i)
  | c => EDo c k
  end.
(** A condition: asm.rs 289 (CTry32Of), 36-42, 69, 102 (CIsRax), 895, 923 (CNotCl); the others read imm only. *)
Definition e_cond (c : gcond) (k : gcond -> ecode) : ecode :=
  match c with
  | CTry32Of e => EEval e (fun v => k (CTry32Of (ELit v)))
  | CIsRax g => EEval g (fun v => k (CIsRax (ELit v)))
  | CNotCl g => EEval g (fun v => k (CNotCl (ELit v)))
  | c => k c
  end.
(** The expression that the text of the panic message shows, if any (the immediate, which most messages show, is the
    variable imm): asm.rs 293 (call), 443, 486, 533 (the register of movl, movw, movb), 795 (the immediate of byte operations). *)
Definition message (i : inst) : option expr :=
  match i with
  | ICall (DestDisp e) => Some e
  | IMovl (RmReg g) (RmiImm _) | IMovw (RmReg g) (RmiImm _) | IMovb (RmReg g) (RmiImm _) => Some (greg_of g)
  | IAdd BYTE _ (RmiImm e) | IOr BYTE _ (RmiImm e) | IAdc BYTE _ (RmiImm e) | ISbb BYTE _ (RmiImm e)
  | IAnd BYTE _ (RmiImm e) | ISub BYTE _ (RmiImm e) | IXor BYTE _ (RmiImm e) | ICmp BYTE _ (RmiImm e) => Some e
  | _ => None
  end.
Definition e_panic (m : option expr) : ecode := match m with Some e => EEval e (fun _ => EPanic) | None => EPanic end.
Fixpoint e_code (m : option expr) (g : gcode) : ecode :=
  match g with
  | GNil => ENil
  | GPanic => e_panic m
  | GDo c k => e_call c (e_code m k)
  | GLetImm e k => EEval e (fun v => EImm v (e_code m k))
  | GIf c t e k => e_cond c (fun c => EIf c (e_code m t) (e_code m e) (e_code m k))
  end.

(** The expansion of a statement.  Three forms of movq bind an operand to a variable, which
    ModelMacro inlines: asm.rs 352-356 [let op2 = Rm::reg(#op2)], 370-393 [let rm_op =
    Rm::reg(#expr)] (never used, the expression occurs again in the call), 413-417
    [let op1 = Rm::reg(#op1)]. *)
Definition e_compile (i : inst) : option ecode :=
  match i with
  | IMovq (MovXmm x) (MovReg g) =>
      Some (EEval (greg_of g) (fun v => EDo (GEmitb 0x66) (EEval x (fun u => EDo (GEncRexwMr [0x0f; 0x6e] (ELit u) (GRmReg (ELit v))) ENil))))
  | IMovq (MovReg g) (MovImm e (None | Some QWORD)) =>
      Some (EEval e (fun v => EImm v (EEval (greg_of g) (fun _ => e_code None (g2 (GEncRexwO 0xb8 (greg_of g)) GEmitqImm)))))
  | IMovq (MovReg g) (MovXmm x) =>
      Some (EEval (greg_of g) (fun v => EDo (GEmitb 0x66) (EEval x (fun u => EDo (GEncRexwMr [0x0f; 0x7e] (ELit u) (GRmReg (ELit v))) ENil))))
  | i => option_map (e_code (message i)) (compile i)
  end.
Fixpoint e_compile_all (is : list inst) : option (list ecode) :=
  match is with
  | [] => Some []
  | i :: r => match e_compile i, e_compile_all r with Some g, Some gs => Some (g :: gs) | _, _ => None end
  end.

(** ** Execution (of what monoasm_macro/src/lib.rs 22-29 expands to) *)
Section Exec.
Variable W : Type.
(** The value of an expression and its effect on the caller's state. *)
Variable ev : list tok -> env -> W -> Z * W.
Variable lenv : string -> label.
Inductive eres := EOk (r : env) (w : W) (s : jit) | EFail (e : panic) (w : W) (s : jit).
Definition e_eval (r : env) (e : expr) (w : W) : Z * W :=
  match e with ELit v => (v, w) | EToks ts => ev ts r w end.
(** Calls and conditions contain no expressions any more. *)
Definition none (ts : list tok) (r : env) : Z := 0.
Fixpoint e_exec (r : env) (g : ecode) (w : W) (s : jit) : eres :=
  match g with
  | ENil => EOk r w s
  | EPanic => EFail ImmRange w s
  | EDo c k => match run_call none lenv r c s with Ok _ s1 => e_exec r k w s1 | Panic e s1 => EFail e w s1 end
  | EEval e k => let (v, w1) := e_eval r e w in e_exec r (k v) w1 s
  | EImm v k => e_exec (env_set "imm" (i64 v) r) k w s
  | EIf c t e k =>
      let (b, r') := run_cond none r c in
      match (if b then e_exec r' t w s else e_exec r e w s) with EOk _ w1 s1 => e_exec r k w1 s1 | f => f end
  end.
Fixpoint e_exec_all (r : env) (gs : list ecode) (w : W) (s : jit) : eres :=
  match gs with
  | [] => EOk r w s
  | g :: rest => match e_exec r g w s with EOk r1 w1 s1 => e_exec_all r1 rest w1 s1 | f => f end
  end.
(** monoasm!(jit, body): monoasm_macro/src/lib.rs 22-29. *)
Definition e_block (r : env) (body : list inst) (w : W) (s : jit) : eres :=
  match e_compile_all body with Some gs => e_exec_all r gs w s | None => EFail Unimplemented w s end.
End Exec.
