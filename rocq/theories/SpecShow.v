(** When a text shows an operand: read as source, it is an operand that means the same. *)
From Verif Require Import Base ModelSyntax SpecX86 SpecAsm.
Local Open Scope string_scope.
Local Open Scope list_scope.
Local Open Scope Z_scope.

(** What an operand of [movq] means. *)
Definition d_mov (val : expr -> Z) (rel : string -> Z) (o : mov_operand) : option operand :=
  match o with
  | MovImm e _ => Some (OImm (i64 (val e)))
  | MovReg r => d_reg val W64 r
  | MovXmm e => d_xmm val e
  | MovInd a => d_mem val rel a
  end.

(** The value of an expression: a literal's own, or that of its tokens. *)
Definition value (val : list tok -> Z) (e : expr) : Z := match e with ELit v => v | EToks ts => val ts end.

(** [text], with anything of [after] behind it, is read as an operand with the meaning of [o], if that has one. *)
Definition shows {A} (read : list tok -> option (A * list tok)) (means : A -> option operand) (after : list tok -> Prop)
    (text : list tok) (o : A) : Prop :=
  forall x rest, means o = Some x -> after rest -> exists o', read (text ++ rest) = Some (o', rest) /\ means o' = Some x.

(** The end of an operand. *)
Definition ended (rest : list tok) : Prop := exists r, rest = TPunct "," :: r \/ rest = TPunct ";" :: r.

(** What is needed of Rust: how literals, negative literals, [n as u64] and the negation of a cast are read. *)
Section Rust.
Variables (is_expr : list tok -> bool) (val : list tok -> Z).
Definition has (ts : list tok) (v : Z) : Prop := is_expr ts = true /\ val ts = v.
Record rust : Prop := {
  r_int : forall v, 0 <= v -> has [TInt v] v;
  r_neg : forall v, 0 <= v -> has [TPunct "-"; TInt v] (- v);
  r_u64 : forall v, 0 <= v <= 15 -> has [TInt v; TIdent "as"; TIdent "u64"] v;
  r_minus : forall ts v, has (ts ++ [TIdent "as"; TIdent "i32"]) v ->
    has [TPunct "-"; TGroup Paren (ts ++ [TIdent "as"; TIdent "i32"])] (i32 (- v)) }.
(** An expression without operators that bind looser than [as]. *)
Definition tight (e : expr) : Prop :=
  match e with ELit _ => False | EToks ts => is_expr ts = true /\ has (ts ++ [TIdent "as"; TIdent "i32"]) (i32 (val ts)) end.
(** An operand as the parser makes it: an expression of the input, or a register name. *)
Definition reg_read (r : register) : Prop := match r with RReg n => 0 <= n | RExpr (EToks ts) => is_expr ts = true | RExpr (ELit _) => False end.
(** The operands that are shown: memory without an index and without a label, with displacements that are literals or tight. *)
Definition simple (a : ind_addr) : Prop :=
  reg_read (ia_base a) /\ ia_scale a = PScaleNone /\ match ia_disp a with PImm _ => True | PExpr _ e => tight e | PLabel _ => False end.
(** Immediates: literals. *)
Definition literal (e : expr) : Prop := match e with ELit v => 0 <= v | EToks _ => False end.
Definition rm_simple (o : rm_operand) : Prop := match o with RmReg r => reg_read r | RmInd a => simple a end.
Definition rmi_simple (o : rmi_operand) : Prop := match o with RmiImm e => literal e | RmiReg r => reg_read r | RmiInd a => simple a end.
Definition ri_simple (o : ri_operand) : Prop := match o with RiImm e => literal e | RiReg r => reg_read r end.
Definition xm_simple (o : xm_operand) : Prop := match o with XmXmm _ => True | XmInd a => simple a end.
Definition mov_simple (o : mov_operand) : Prop :=
  match o with MovImm e s => literal e /\ s = None | MovReg r => reg_read r | MovXmm _ => True | MovInd a => simple a end.
End Rust.
