(** Specification: Rust's integer expressions (Rust Reference: "Expression precedence", "Operator expressions", "Type cast
    expressions", "Integer literal expressions") as token trees: how they are read, which have a type and which value.
    Left out: references, dereferences, ranges, assignments, closures, control flow; calls, fields and indexing bind tighter than
    every operator here and stand for variables.  Suffixes of literals are left out, too. *)
From Verif Require Import Base ModelSyntax.
Local Open Scope list_scope.
Local Open Scope Z_scope.

(** ** Syntax *)
Inductive ity := I8 | I16 | I32 | I64 | Isize | U8 | U16 | U32 | U64 | Usize.
Inductive unop := UNeg | UNot.
Inductive binop := BMul | BDiv | BRem | BAdd | BSub | BShl | BShr | BAnd | BXor | BOr | BEq | BNe | BLt | BGt | BLe | BGe | BLand | BLor.
Inductive rexpr :=
| XLit (v : Z) | XBool (b : bool) | XVar (x : string) | XParen (e : rexpr)
| XUn (o : unop) (e : rexpr) | XCast (e : rexpr) (t : ity) | XBin (o : binop) (a b : rexpr).

(** How tight an operator binds; "as" binds tighter than all of them, unary operators tighter still. *)
Definition level (o : binop) : nat :=
  match o with
  | BMul | BDiv | BRem => 8 | BAdd | BSub => 7 | BShl | BShr => 6 | BAnd => 5 | BXor => 4 | BOr => 3
  | BEq | BNe | BLt | BGt | BLe | BGe => 2 | BLand => 1 | BLor => 0
  end.
Definition is_cmp (o : binop) : bool := Nat.eqb (level o) 2.
Definition ty_name (s : string) : option ity :=
  (if String.eqb s "i8" then Some I8 else if String.eqb s "i16" then Some I16 else if String.eqb s "i32" then Some I32
   else if String.eqb s "i64" then Some I64 else if String.eqb s "isize" then Some Isize else if String.eqb s "u8" then Some U8
   else if String.eqb s "u16" then Some U16 else if String.eqb s "u32" then Some U32 else if String.eqb s "u64" then Some U64
   else if String.eqb s "usize" then Some Usize else None)%string.
(** An operator between two operands. *)
Definition one_punct (c : ascii) : option binop :=
  (if Ascii.eqb c "*" then Some BMul else if Ascii.eqb c "/" then Some BDiv else if Ascii.eqb c "%" then Some BRem
   else if Ascii.eqb c "+" then Some BAdd else if Ascii.eqb c "-" then Some BSub else if Ascii.eqb c "&" then Some BAnd
   else if Ascii.eqb c "^" then Some BXor else if Ascii.eqb c "|" then Some BOr else if Ascii.eqb c "<" then Some BLt
   else if Ascii.eqb c ">" then Some BGt else None)%char.
Definition two_puncts (c d : ascii) : option binop :=
  (if Ascii.eqb c "<" && Ascii.eqb d "<" then Some BShl else if Ascii.eqb c ">" && Ascii.eqb d ">" then Some BShr
   else if Ascii.eqb c "&" && Ascii.eqb d "&" then Some BLand else if Ascii.eqb c "|" && Ascii.eqb d "|" then Some BLor
   else if Ascii.eqb c "=" && Ascii.eqb d "=" then Some BEq else if Ascii.eqb c "!" && Ascii.eqb d "=" then Some BNe
   else if Ascii.eqb c "<" && Ascii.eqb d "=" then Some BLe else if Ascii.eqb c ">" && Ascii.eqb d "=" then Some BGe else None)%char.
Definition p_binop (ts : list tok) : option (binop * list tok) :=
  match ts with
  | TPunct c :: r =>
      match match r with TPunct d :: r' => match two_puncts c d with Some o => Some (o, r') | None => None end | _ => None end with
      | Some x => Some x
      | None => match one_punct c with Some o => Some (o, r) | None => None end
      end
  | _ => None
  end.
(** "as T" any number of times; a "<" behind it would begin generic arguments. *)
Fixpoint p_casts (e : rexpr) (ts : list tok) : option (rexpr * list tok) :=
  match ts with
  | TIdent a :: r =>
      if String.eqb a "as" then
        match r with
        | TIdent t :: r' =>
            match ty_name t with
            | Some T => match r' with TPunct c :: _ => if Ascii.eqb c "<" then None else Some (XCast e T, r') | _ => p_casts (XCast e T) r' end
            | None => None
            end
        | _ => None
        end
      else Some (e, ts)
  | _ => Some (e, ts)
  end.
Definition reserved (s : string) : bool :=
  existsb (String.eqb s) ["as"; "break"; "const"; "continue"; "crate"; "else"; "enum"; "extern"; "fn"; "for"; "if"; "impl"; "in";
    "let"; "loop"; "match"; "mod"; "move"; "mut"; "pub"; "ref"; "return"; "self"; "Self"; "static"; "struct"; "super"; "trait";
    "type"; "unsafe"; "use"; "where"; "while"; "async"; "await"; "dyn"; "_"]%string.
Definition is_cmp_expr (e : rexpr) : bool := match e with XBin o _ _ => is_cmp o | _ => false end.
(** Operand, operand with casts, operators of at least level [m]; comparisons do not associate. *)
Fixpoint p_un (n : nat) (ts : list tok) : option (rexpr * list tok) :=
  match n with
  | O => None
  | S n' =>
      match ts with
      | TPunct c :: r =>
          match (if Ascii.eqb c "-" then Some UNeg else if Ascii.eqb c "!" then Some UNot else None)%char with
          | Some o => match p_un n' r with Some (e, r') => Some (XUn o e, r') | None => None end
          | None => None
          end
      | TInt v :: r => Some (XLit v, r)
      | TIdent s :: r =>
          if String.eqb s "true" then Some (XBool true, r) else if String.eqb s "false" then Some (XBool false, r)
          else if reserved s then None else Some (XVar s, r)
      | TGroup Paren g :: r => match p_bin n' 0 g with Some (e, []) => Some (XParen e, r) | _ => None end
      | _ => None
      end
  end
with p_bin (n : nat) (m : nat) (ts : list tok) : option (rexpr * list tok) :=
  match n with
  | O => None
  | S n' =>
      match p_un n' ts with
      | Some (u, r) => match p_casts u r with Some (c, r') => p_loop n' m c r' | None => None end
      | None => None
      end
  end
with p_loop (n : nat) (m : nat) (lhs : rexpr) (ts : list tok) : option (rexpr * list tok) :=
  match n with
  | O => None
  | S n' =>
      match p_binop ts with
      | Some (o, r) =>
          if Nat.leb m (level o) then
            if is_cmp o && is_cmp_expr lhs then None
            else match p_bin n' (S (level o)) r with
                 | Some (rhs, r') => p_loop n' m (XBin o lhs rhs) r'
                 | None => None
                 end
          else Some (lhs, ts)
      | None => Some (lhs, ts)
      end
  end.
(** The tokens are the expression [e]. *)
Definition reads (ts : list tok) (e : rexpr) : Prop := exists n, p_bin n 0 ts = Some (e, []).

(** ** Types *)
Definition bits (t : ity) : Z := match t with I8 | U8 => 8 | I16 | U16 => 16 | I32 | U32 => 32 | _ => 64 end.
Definition is_signed (t : ity) : bool := match t with I8 | I16 | I32 | I64 | Isize => true | _ => false end.
Definition in_ty (t : ity) (v : Z) : bool :=
  if is_signed t then (- 2 ^ (bits t - 1) <=? v) && (v <? 2 ^ (bits t - 1)) else (0 <=? v) && (v <? 2 ^ bits t).
Definition wrap (t : ity) (v : Z) : Z := if is_signed t then signed (2 ^ bits t) v else v mod 2 ^ bits t.
Definition ity_eqb (a b : ity) : bool :=
  match a, b with
  | I8, I8 | I16, I16 | I32, I32 | I64, I64 | Isize, Isize | U8, U8 | U16, U16 | U32, U32 | U64, U64 | Usize, Usize => true
  | _, _ => false
  end.
(** What is known of the type of an expression: an error, an integer of a type still open (literals only), a type, bool. *)
Inductive kind := KErr | KOpen | KTy (t : ity) | KBool.
Definition join (a b : kind) : kind :=
  match a, b with
  | KOpen, KOpen => KOpen
  | KOpen, KTy t | KTy t, KOpen => KTy t
  | KTy t, KTy u => if ity_eqb t u then KTy t else KErr
  | KBool, KBool => KBool
  | _, _ => KErr
  end.
Inductive oclass := Arith | Bits | Shifts | Cmps | Logic.
Definition class (o : binop) : oclass :=
  match o with
  | BMul | BDiv | BRem | BAdd | BSub => Arith
  | BAnd | BXor | BOr => Bits
  | BShl | BShr => Shifts
  | BLand | BLor => Logic
  | _ => Cmps
  end.
Definition is_int (k : kind) : bool := match k with KOpen | KTy _ => true | _ => false end.
Section Eval.
(** The types of the variables, their values, and whether overflow panics (debug builds). *)
Variable G : string -> option ity.
Variable r : string -> Z.
Variable checks : bool.
Fixpoint kind_of (e : rexpr) : kind :=
  match e with
  | XLit _ => KOpen
  | XBool _ => KBool
  | XVar x => match G x with Some t => KTy t | None => KErr end
  | XParen e => kind_of e
  | XUn UNeg e => match kind_of e with KOpen => KOpen | KTy t => if is_signed t then KTy t else KErr | _ => KErr end
  | XUn UNot e => kind_of e
  | XCast e t => match kind_of e with KErr => KErr | _ => KTy t end
  | XBin o a b =>
      match class o with
      | Arith => match join (kind_of a) (kind_of b) with KBool => KErr | k => k end
      | Bits => join (kind_of a) (kind_of b)
      | Shifts => if is_int (kind_of b) then match kind_of a with KBool => KErr | k => k end else KErr
      | Cmps => match join (kind_of a) (kind_of b) with KErr => KErr | _ => KBool end
      | Logic => match kind_of a, kind_of b with KBool, KBool => KBool | _, _ => KErr end
      end
  end.
(** Integers of open type are i32; a literal that is cast has the type it is cast to. *)
Definition settle (k : kind) : ity := match k with KTy t => t | _ => I32 end.
Fixpoint is_lit (e : rexpr) : bool := match e with XLit _ => true | XParen e => is_lit e | XUn UNeg e => is_lit e | _ => false end.
Definition own (t : ity) (e : rexpr) : ity := if is_lit e then t else settle (kind_of e).
(** rustc refuses literals that do not fit their type. *)
Fixpoint fits (t : ity) (e : rexpr) : bool :=
  match e with
  | XLit v => in_ty t v
  | XBool _ | XVar _ => true
  | XParen e => fits t e
  | XUn UNeg (XLit v) => in_ty t (- v)
  | XUn _ e => fits t e
  | XCast e u => fits (own u e) e
  | XBin o a b =>
      match class o with
      | Shifts => fits t a && fits (settle (kind_of b)) b
      | Cmps => let u := settle (join (kind_of a) (kind_of b)) in fits u a && fits u b
      | _ => fits t a && fits t b
      end
  end.
Definition arith (t : ity) (v : Z) : option Z := if in_ty t v then Some v else if checks then None else Some (wrap t v).
(** [e] at type [t]; None: panics. *)
Definition bin_val (o : binop) (t : ity) (v w : Z) : option Z :=
  match o with
  | BMul => arith t (v * w)
  | BAdd => arith t (v + w)
  | BSub => arith t (v - w)
  | BDiv => if w =? 0 then None else if in_ty t (Z.quot v w) then Some (Z.quot v w) else None
  | BRem => if w =? 0 then None else if in_ty t (Z.quot v w) then Some (Z.rem v w) else None
  | BAnd => Some (Z.land v w)
  | BXor => Some (Z.lxor v w)
  | BOr => Some (Z.lor v w)
  | BShl => if (0 <=? w) && (w <? bits t) then Some (wrap t (v * 2 ^ w)) else if checks then None else Some (wrap t (v * 2 ^ (w mod bits t)))
  | BShr => if (0 <=? w) && (w <? bits t) then Some (v / 2 ^ w) else if checks then None else Some (v / 2 ^ (w mod bits t))
  | BEq => Some (Z.b2z (v =? w))
  | BNe => Some (Z.b2z (negb (v =? w)))
  | BLt => Some (Z.b2z (v <? w))
  | BGt => Some (Z.b2z (w <? v))
  | BLe => Some (Z.b2z (v <=? w))
  | BGe => Some (Z.b2z (w <=? v))
  | BLand | BLor => None
  end.
Fixpoint value (t : ity) (e : rexpr) : option Z :=
  match e with
  | XLit v => Some v
  | XBool b => Some (Z.b2z b)
  | XVar x => Some (r x)
  | XParen e => value t e
  | XUn UNeg (XLit v) => Some (- v)
  | XUn UNeg e => match value t e with Some v => arith t (- v) | None => None end
  | XUn UNot e =>
      match value t e with
      | Some v => Some (match kind_of e with KBool => 1 - v | _ => wrap t (Z.lnot v) end)
      | None => None
      end
  | XCast e u => match value (own u e) e with Some v => Some (wrap u v) | None => None end
  | XBin o a b =>
      match class o with
      | Logic =>
          match value t a with
          | Some v => if (v =? 0) && match o with BLand => true | _ => false end then Some 0
                      else if negb (v =? 0) && match o with BLor => true | _ => false end then Some 1 else value t b
          | None => None
          end
      | c =>
          let ta := match c with Cmps => settle (join (kind_of a) (kind_of b)) | _ => t end in
          let tb := match c with Shifts => settle (kind_of b) | _ => ta end in
          match value ta a with
          | Some v => match value tb b with Some w => bin_val o t v w | None => None end
          | None => None
          end
      end
  end.
(** An expression where a [t] is wanted.  None: it does not compile; Some None: it panics. *)
Definition means (t : ity) (e : rexpr) : option (option Z) :=
  match kind_of e with
  | KOpen => if fits t e then Some (value t e) else None
  | KTy u => if ity_eqb t u && fits t e then Some (value t e) else None
  | _ => None
  end.
End Eval.
