(** The generated code with the types and all the names of its variables.  ModelMacro and the models after it
    have integer variables only, of which the expansion redefines [imm].  The tokens of the expansion have the
    span of the call, so that every variable it declares hides a variable of that name of the caller: [jit]
    (monoasm_macro/src/lib.rs 26), [imm] (asm.rs, [let imm = (#i) as i64], and in a narrower type inside
    [if let Ok(imm) = i8::try_from(imm)]), [op2] (asm.rs 353), [rm_op] (375, 383) and [op1] (414).
    Variables have values of any type here; expressions may have effects, use the assembler and leave, as in ModelFlow.
    Types an expression cannot have in a place (rustc refuses the program) have no meaning here, except for labels. *)
From Verif Require Import Base ModelMem ModelEnc ModelSyntax ModelMacro ModelEff.

(** Values of variables: what "let imm" (asm.rs 374), "let rm_op" (375, 383), "let op1", "let op2" (353, 414) and "let mut
    jit" (monoasm_macro/src/lib.rs 26) bind.  An integer of a type of so many bits, an [Rm], the assembler of the block, any other object of the caller. *)
Inductive val := VInt (bits v : Z) | VRm (x : rm) | VJit | VMine (n : Z).
Definition nenv := string -> val.
Definition n_set (x : string) (v : val) (r : nenv) : nenv := fun y => if String.eqb y x then v else r y.
(** What calls and conditions of the generated code read: the integer imm (any number that no i64 is, if it is no integer). *)
Definition ints (r : nenv) : env := fun x => match r x with VInt _ v => v | _ => 2 ^ 64 end.

Inductive ncode :=
| NCode (g : ecode)
| NDo (c : gcall) (k : ncode)
| NEval (e : expr) (k : Z -> ncode)
| NImm (v : Z) (k : ncode)                               (* let imm = v as i64 *)
| NLet (x : string) (v : Z) (k : ncode)                  (* let x = Rm::reg(Reg::from(v)) *)
| NMr (op : list Z) (u : Z) (x : string) (k : ncode).    (* jit.enc_rexw_mr(op, Reg::from(u), x) *)
(** asm.rs 352-356, 370-393, 413-417; the other statements declare no variable but imm. *)
Definition n_compile (i : inst) : option ncode :=
  match i with
  | IMovq (MovXmm x) (MovReg g) =>
      Some (NEval (greg_of g) (fun v => NLet "op2" v (NDo (GEmitb 0x66) (NEval x (fun u => NMr [0x0f; 0x6e] u "op2" (NCode ENil))))))
  | IMovq (MovReg g) (MovImm e (None | Some QWORD)) =>
      Some (NEval e (fun v => NImm v (NEval (greg_of g) (fun u => NLet "rm_op" u (NCode (e_code None (g2 (GEncRexwO 0xb8 (greg_of g)) GEmitqImm)))))))
  | IMovq (MovReg g) (MovXmm x) =>
      Some (NEval (greg_of g) (fun v => NLet "op1" v (NDo (GEmitb 0x66) (NEval x (fun u => NMr [0x0f; 0x7e] u "op1" (NCode ENil))))))
  | i => option_map NCode (e_compile i)
  end.

(** Labels are variables of the caller ([DestLabel]; spliced at asm.rs 7, 283, 320, 325, parse.rs 462-464), read by name where the code refers to them: if the expansion has
    declared the name, the type is wrong and the program does not compile. *)
Definition within_names (x : string) (hid : list string) : bool := existsb (String.eqb x) hid.
Definition disp_ident (d : pdisp) : list string := match d with PLabel x => [x] | _ => [] end.
Definition grm_ident (x : grm) : list string := match x with GRmReg _ => [] | GRmInd a => disp_ident (ia_disp a) end.
Definition call_ident (c : gcall) : list string :=
  match c with
  | GBindLabel x | GEncD _ x | GSaveReloc x _ => [x]
  | GEncMi _ x _ | GEncRexwMi _ x _ | GEncMiByte _ x _ | GEncMr _ _ x | GEncMrByte _ _ x | GEncRexwMr _ _ x | GEncMByte _ x
  | GEncDigit _ x _ | GEncDigitImm _ x _ _ | GEncDigitImmByte _ _ x _ _ | GEncRexwDigit _ x _ _ => grm_ident x
  | _ => []
  end.
Definition cond_declares (c : gcond) : list string := match c with CTry8 | CTry16 | CTry32 | CTry32Of _ => ["imm"%string] | _ => [] end.
Fixpoint idents_ok (hid : list string) (g : gcode) : bool :=
  match g with
  | GNil | GPanic => true
  | GDo c k => negb (existsb (fun x => within_names x hid) (call_ident c)) && idents_ok hid k
  | GLetImm _ k => idents_ok ("imm"%string :: hid) k
  | GIf c t e k => idents_ok (cond_declares c ++ hid) t && idents_ok hid e && idents_ok hid k
  end.
(** The names a statement declares for those after it: the "let"s of asm.rs 67, 82, 100, 115, 374, 382, 401, 437, 453, 479, 495, 526, 542, 607, 666, 725, 791, 880, 908
    (imm), 353, 375, 383, 414. *)
Fixpoint code_declares (g : gcode) : list string :=
  match g with GLetImm _ k => "imm"%string :: code_declares k | GDo _ k | GIf _ _ _ k => code_declares k | _ => [] end.
Definition declares (i : inst) : list string :=
  match i with
  | IMovq (MovXmm _) (MovReg _) => ["op2"%string]
  | IMovq (MovReg _) (MovImm _ _) => ["rm_op"%string; "imm"%string]
  | IMovq (MovReg _) (MovXmm _) => ["op1"%string]
  | i => match compile i with Some g => code_declares g | None => [] end
  end.
Fixpoint n_compile_all (hid : list string) (is : list inst) : option (list ncode) :=
  match is with
  | [] => Some []
  | i :: r =>
      match compile i, n_compile i, n_compile_all (declares i ++ hid) r with
      | Some g, Some n, Some ns => if idents_ok hid g then Some (n :: ns) else None
      | _, _, _ => None
      end
  end.

Section Exec.
Variable W : Type.
(** The value of an expression, or none when it leaves the block, and its effect on the caller's state and the assembler. *)
Variable ev : list tok -> nenv -> W * jit -> option Z * (W * jit).
Variable lenv : string -> label.
(** Execution of the block (monoasm_macro/src/lib.rs 22-29). *)
Inductive nres := NOk (r : nenv) (x : W * jit) | NFail (e : panic) (x : W * jit) | NLeft (x : W * jit).
Definition n_eval (r : nenv) (e : expr) (x : W * jit) : option Z * (W * jit) :=
  match e with ELit v => (Some v, x) | EToks ts => ev ts r x end.
Definition n_do (m : M unit) (x : W * jit) (k : W * jit -> nres) : nres :=
  match m (snd x) with Ok _ s1 => k (fst x, s1) | Panic e s1 => NFail e (fst x, s1) end.
(** [if let Ok(imm) = ..] (asm.rs 68, 83, 101, 116, 402, 438, 454, 480, 496, 527, 543, 608-610, 667-669, 727-729, 792, 883, 911; 289): the same number in a narrower type. *)
Definition narrow (c : gcond) (r : nenv) : nenv :=
  match c with
  | CTry8 => n_set "imm" (VInt 8 (ints r "imm"%string)) r
  | CTry16 => n_set "imm" (VInt 16 (ints r "imm"%string)) r
  | CTry32 => n_set "imm" (VInt 32 (ints r "imm"%string)) r
  | CTry32Of e => n_set "imm" (VInt 32 (i64 (eval none (ints r) e))) r
  | _ => r
  end.
(** asm.rs 5-974.  Code without declarations of an Rm (ModelEff's [ecode], see ModelFlow). *)
Fixpoint n_ecode (r : nenv) (g : ecode) (x : W * jit) : nres :=
  match g with
  | ENil => NOk r x
  | EPanic => NFail ImmRange x
  | EDo c k => n_do (run_call none lenv (ints r) c) x (n_ecode r k)
  | EEval e k => match n_eval r e x with (Some v, x1) => n_ecode r (k v) x1 | (None, x1) => NLeft x1 end
  | EImm v k => n_ecode (n_set "imm" (VInt 64 (i64 v)) r) k x
  | EIf c t e k =>
      match (if fst (run_cond none (ints r) c) then n_ecode (narrow c r) t x else n_ecode r e x) with NOk _ x1 => n_ecode r k x1 | f => f end
  end.
Fixpoint n_exec (r : nenv) (g : ncode) (x : W * jit) : nres :=
  match g with
  | NCode g => n_ecode r g x
  | NDo c k => n_do (run_call none lenv (ints r) c) x (n_exec r k)
  | NEval e k => match n_eval r e x with (Some v, x1) => n_exec r (k v) x1 | (None, x1) => NLeft x1 end
  | NImm v k => n_exec (n_set "imm" (VInt 64 (i64 v)) r) k x
  | NLet y v k => n_exec (n_set y (VRm (rm_reg (reg_from v))) r) k x
  | NMr op u y k => match r y with VRm m => n_do (enc_rexw_mr op (reg_from u) m) x (n_exec r k) | _ => NFail Unimplemented x end
  end.
Fixpoint n_exec_all (r : nenv) (gs : list ncode) (x : W * jit) : nres :=
  match gs with
  | [] => NOk r x
  | g :: rest => match n_exec r g x with NOk r1 x1 => n_exec_all r1 rest x1 | f => f end
  end.
(** monoasm!(base, body) (monoasm_macro/src/lib.rs 22-29): [base] is evaluated in the caller's variables and selects
    the assembler, which is [jit] from then on.  None: the program does not compile. *)
Variable evb : list tok -> nenv -> W -> W * jit.
Definition n_macro (base : list tok) (r : nenv) (body : list inst) (w : W) : option nres :=
  match n_compile_all ["jit"%string] body with
  | Some gs => Some (n_exec_all (n_set "jit" VJit r) gs (evb base r w))
  | None => None
  end.
End Exec.
