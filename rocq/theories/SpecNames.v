(** Which variables, of which types, the expressions of a block see when the variables of the caller may have any
    name and any type. *)
From Verif Require Import Base ModelMem ModelEnc ModelSyntax ModelMacro ModelEff ModelLeave ModelNames SpecX86 SpecAsm SpecState SpecProg SpecScope.
Local Open Scope list_scope.
Local Open Scope Z_scope.

(** The names the expansion takes. *)
Definition taken : list string := ["imm"; "jit"; "op1"; "op2"; "rm_op"]%string.

Section Scope.
Variable ev : list tok -> nenv -> Z.
Definition nval (r : nenv) (e : expr) : Z := match e with ELit v => v | EToks ts => ev ts r end.
(** The type of imm in the operands of a statement whose immediate is [v]: the narrowest that is tried. *)
Definition arith_bits (z : opsize) (v : Z) : Z :=
  match z with BYTE => 8 | WORD => if in_i8 v then 8 else 16 | DWORD | QWORD => if in_i8 v then 8 else 32 end.
Definition imm_bits (i : inst) (v : Z) : Z :=
  match i with
  | IMovb _ _ | ITestb _ _ => 8
  | IMovw _ _ => 16
  | IAdd z _ _ | ISub z _ _ | IAdc z _ _ | ISbb z _ _ | IAnd z _ _ | IOr z _ _ | IXor z _ _ | ICmp z _ _ => arith_bits z v
  | IShl _ _ _ | IShr _ _ _ | ISal _ _ _ | ISar _ _ _ | IRol _ _ _ | IRor _ _ _ => if v =? 1 then 64 else 8
  | _ => 32
  end.
Definition let_imm (r : nenv) (e : expr) : nenv := n_set "imm" (VInt 64 (i64 (nval r e))) r.
Definition let_rm (x : string) (r : nenv) (g : register) : nenv := n_set x (VRm (rm_reg (reg_from (nval r (greg_of g))))) r.
(** The variables after a statement. *)
Definition n_after (r : nenv) (i : inst) : nenv :=
  match i with
  | IMovq (MovXmm _) (MovReg g) => let_rm "op2" r g
  | IMovq (MovReg g) (MovImm e _) => let_rm "rm_op" (let_imm r e) g
  | IMovq (MovReg g) (MovXmm _) => let_rm "op1" r g
  | _ => match own_imm i with Some e => let_imm r e | None => r end
  end.
(** The variables its operands see, other than an immediate (which sees [r]). *)
Definition n_inner (r : nenv) (i : inst) : nenv :=
  match i with
  | IMovq (MovReg _) (MovImm _ _) => n_after r i
  | _ => match own_imm i with
         | Some e => let v := i64 (nval r e) in let b := imm_bits i v in
             if b =? 64 then let_imm r e else n_set "imm" (VInt b v) (let_imm r e)
         | None => r
         end
  end.
(** The block with every expression replaced by its value.  In a movq between a general and an xmm register the general
    one is evaluated first, and the other sees the variable that holds it. *)
Definition n_frozen1 (r : nenv) (i : inst) : inst :=
  match i with
  | IMovq (MovXmm x) (MovReg g) => IMovq (MovXmm (ELit (nval (n_after r i) x))) (MovReg (fz_reg (nval r) g))
  | IMovq (MovReg g) (MovXmm x) => IMovq (MovReg (fz_reg (nval r) g)) (MovXmm (ELit (nval (n_after r i) x)))
  | _ => fz_inst (nval r) (nval (n_inner r i)) i
  end.
Fixpoint n_frozen (r : nenv) (body : list inst) : list inst :=
  match body with [] => [] | i :: b => n_frozen1 r i :: n_frozen (n_after r i) b end.
(** The same with imm, an i64, the only name that is taken (what C52 says). *)
Definition i_after (r : nenv) (i : inst) : nenv := match own_imm i with Some e => let_imm r e | None => r end.
Fixpoint i_frozen (r : nenv) (body : list inst) : list inst :=
  match body with [] => [] | i :: b => fz_inst (nval r) (nval (i_after r i)) i :: i_frozen (i_after r i) b end.
End Scope.

(** Labels are variables too.  A statement declares these names, which labels in it and after it must not have. *)
Definition declared (i : inst) : list string :=
  match i with
  | IMovq (MovXmm _) (MovReg _) => ["op2"]%string
  | IMovq (MovReg _) (MovImm _ _) => ["rm_op"; "imm"]%string
  | IMovq (MovReg _) (MovXmm _) => ["op1"]%string
  | _ => match own_imm i with Some _ => ["imm"]%string | None => [] end
  end.
Fixpoint labels_visible (hidden : list string) (body : list inst) : Prop :=
  match body with
  | [] => True
  | i :: b => (forall x, In x (inst_labels i) \/ i = ILabel x -> ~ In x (declared i ++ hidden)) /\ labels_visible (declared i ++ hidden) b
  end.

(** What a block whose expressions have no effects ended with. *)
Definition ends {W} (x : nres W) (w : W) (y : res (option label)) : Prop :=
  match x, y with
  | NOk _ _ (w1, s1), Ok _ s2 => w1 = w /\ s1 = s2
  | NFail _ e (w1, s1), Panic f s2 => w1 = w /\ e = f /\ s1 = s2
  | _, _ => False
  end.
(** Two scopes that differ at most in names of [xs] and in the type of imm. *)
Definition same_val (a b : val) : Prop := a = b \/ exists n m v, a = VInt n v /\ b = VInt m v.
Definition alike (xs : list string) (r r' : nenv) : Prop :=
  forall x, ~ In x xs -> if String.eqb x "imm" then same_val (r x) (r' x) else r x = r' x.
(** Expressions that mention no taken name, and expressions that mention none but jit and imm, of which they use the number only. *)
Definition mentions_none {A} (f : nenv -> A) : Prop := forall r r', (forall x, ~ In x taken -> r x = r' x) -> f r = f r'.
Definition mentions_no_rm {A} (f : nenv -> A) : Prop := forall r r', alike ["op1"; "op2"; "rm_op"]%string r r' -> f r = f r'.
(** Variables of the earlier models, which are integers: a value of imm that no i64 has stands for the caller's own imm. *)
Definition only_imm (r : nenv) (q : env) : nenv := if q "imm"%string =? 2 ^ 64 then r else n_set "imm" (VInt 64 (q "imm"%string)) r.
(** The same end as in ModelFlow. *)
Definition ends_as {W} (x : nres W) (y : lres W) : Prop :=
  match x, y with
  | NOk _ _ (w1, s1), LOk _ _ w2 s2 => w1 = w2 /\ s1 = s2
  | NFail _ e (w1, s1), LFail _ f w2 s2 => e = f /\ w1 = w2 /\ s1 = s2
  | NLeft _ (w1, s1), LLeft _ w2 s2 => w1 = w2 /\ s1 = s2
  | _, _ => False
  end.
